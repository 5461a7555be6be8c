(** One turn of the tree construction loop preserves the invariant. *)
From Verif Require Import Base Key_model Key_spec Key_proofs HCell_model HCell_props
  BuildTree_model BuildTree_spec BuildTree_lemmas BuildTree_inv.
Local Open Scope N_scope.

Lemma NoDup_app_l {A} (l l' : list A) : NoDup (l ++ l') -> NoDup l.
Proof.
  induction l as [|x l IH]; cbn; intros H; [constructor|]. inversion H; subst.
  constructor; [|auto]. intros Hx. apply H2, in_or_app. auto.
Qed.

Section Turn.
Variable dim : N.
Hypothesis Hdim : dim_ok dim.
Variable Sm : Type.
Variable fcc : N -> list nat -> list Sm -> Sm.
Variable ks : list N.
Variable lo : option N.

Notation D := (max_depth dim).
Notation B := (2 ^ dim).
Notation up := (up dim).
Notation full := (full dim).
Notation state := (state Sm).
Notation has := (has dim).
Notation many := (many dim).
Notation internal := (internal dim).
Notation cell_ex := (cell_ex dim).
Notation lo_free := (lo_free dim lo).
Notation closed := (closed dim lo).
Notation Inv := (Inv dim Sm fcc ks).
Notation digit := (key_last_value dim).

Hypothesis Hnd : NoDup ks.

Variables (K L rest : list N).
Hypothesis Hks : ks = L ++ rest.
Hypothesis HK : forall x, In x K <-> lo = Some x \/ In x L.
Hypothesis HfK : forall x, In x K -> full x.
Hypothesis HloL : forall x y, lo = Some x -> In y L -> x < y.

Lemma HKL : forall x, In x L -> In x K.
Proof. intros. apply HK. auto. Qed.
Lemma HfL : Forall full L.
Proof. apply Forall_forall. intros. apply HfK, HKL. assumption. Qed.

Variables (iam0 iamlast : bool) (lobound hibound : N).
Hypothesis Hlo : (iam0 = true /\ lo = None) \/ (iam0 = false /\ lo = Some lobound).

Section Climb.
Variable l : N.
Hypothesis Hl : In l L.

Lemma step_ok st r b :
  Inv st K L (closed l r) -> r <= D -> (b = true -> 1 <= r /\ internal K r (up r l)) ->
  (b = false -> ~ internal K r (up r l)) ->
  (forall x, In x ks -> up r x = up r l -> In x L) ->
  exists st',
    (if b && (iam0 || (up r lobound <? up r l)) then finish Sm fcc dim st (up r l) else Some st) = Some st' /\
    Inv st' K L (closed l (r + 1)).
Proof.
  intros HI Hr Hb1 Hb2 Hs.
  assert (Hhas : has L r (up r l)) by (exists l; auto).
  destruct b; cbn [andb].
  - destruct (Hb1 eq_refl) as [Hr1 Hint].
    assert (Hex : cell_ex K L r (up r l)).
    { destruct (N.eq_dec r D) as [E|E].
      - left. split; [assumption|]. rewrite E. apply up_root; auto. apply HfK, HKL, Hl.
      - right. split; [lia|]. split; [assumption|]. rewrite <- (up_S dim Hdim).
        right. destruct Hint as [Hi|Hi]; [lia|]. eapply many_up; eauto. lia. }
    assert (Elo : (iam0 || (up r lobound <? up r l) = true) <-> lo_free r (up r l)).
    { unfold BuildTree_inv.lo_free. destruct Hlo as [[-> ->]|[-> E]]; [cbn; tauto|]. rewrite E. cbn [orb].
      pose proof (up_mono dim Hdim r lobound l) as Hm. specialize (Hm ltac:(pose proof (HloL _ _ E Hl); lia)).
      rewrite N.ltb_lt. lia. }
    destruct (iam0 || (up r lobound <? up r l)) eqn:Et.
    + assert (Hfree : lo_free r (up r l)) by (apply Elo; reflexivity).
      destruct (finish_ok dim Hdim Sm fcc ks K L rest Hks HKL Hnd HfL st (closed l r) r (up r l))
        as (st' & E & HI'); auto.
      * split; [assumption|]. intros x Hx Ex. apply HK in Hx. destruct Hx as [Hx|Hx]; [|assumption].
        unfold BuildTree_inv.lo_free in Hfree. rewrite Hx in Hfree. contradiction.
      * intros [A _]. apply A. split; [lia|reflexivity].
      * intros d Hd. split; [lia|]. unfold BuildTree_inv.lo_free in *.
        destruct lo as [x|]; [|exact I]. intros Ex. apply Hfree.
        rewrite (up_child dim Hdim), Ex by lia. apply (child_parent dim). assumption.
      * exists st'. split; [assumption|]. eapply Inv_ext; [exact HI'|].
        intros r' q' _ _ _ _. split.
        -- intros [[A1 A2]|[-> ->]]; split; try assumption; try lia.
        -- intros [A1 A2]. destruct (N.eq_dec r' r) as [->|Hne].
           ++ destruct (N.eq_dec (up r l) q') as [<-|Hq]; [right; auto|]. left. split; [tauto|assumption].
           ++ left. split; [|assumption]. intros [A3 A4]. apply A1. split; [lia|assumption].
    + exists st. split; [reflexivity|]. eapply Inv_ext; [exact HI|].
      intros r' q' _ _ _ _. split; intros [A1 A2]; split; try assumption.
      * intros [A3 A4]. apply A1. split; [lia|assumption].
      * intros [A3 A4]. destruct (N.eq_dec r' r) as [->|Hne].
        -- subst q'. apply Elo in A2. discriminate.
        -- apply A1. split; [lia|assumption].
  - exists st. split; [reflexivity|]. eapply Inv_ext; [exact HI|].
    intros r' q' _ _ Hi _. split; intros [A1 A2]; split; try assumption.
    + intros [A3 A4]. apply A1. split; [lia|assumption].
    + intros [A3 A4]. destruct (N.eq_dec r' r) as [->|Hne].
      * subst q'. apply (Hb2 eq_refl). assumption.
      * apply A1. split; [lia|assumption].
Qed.

Lemma climb_ok k m : m <= D -> (iamlast = false -> k <= hibound) -> l < k ->
  (forall r, r < m -> up r l <> up r k) -> (forall r, m <= r -> up r l = up r k) ->
  (forall x, In x rest -> k <= x) ->
  forall fuel st r b,
  Inv st K L (closed l r) -> r <= m -> (N.to_nat (m - r) < fuel)%nat ->
  (b = true -> 1 <= r /\ internal K r (up r l)) ->
  (b = false -> r < D /\ ~ internal K r (up r l) /\ internal K (r + 1) (up (r + 1) l)) ->
  exists st', climb Sm fcc dim iam0 iamlast lobound hibound fuel false st r k l (up r k) (up r l) b
                = Some (st', m, up m k, up m l) /\ Inv st' K L (closed l m).
Proof.
  intros HmD Hhi Hlk Hm1 Hm2 Hrest. induction fuel as [|fuel IH]; intros st r b HI Hr Hf Hb1 Hb2; [lia|].
  cbn [climb]. rewrite Bool.orb_false_r.
  destruct (N.eqb_spec (up r k) (up r l)) as [E|E]; cbn [negb].
  - assert (r = m) as ->. { destruct (N.lt_ge_cases r m) as [A|A]; [|lia]. exfalso. apply (Hm1 r A). auto. }
    exists st. split; [rewrite E; reflexivity|assumption].
  - assert (Hrm : r < m). { destruct (N.lt_ge_cases r m) as [A|A]; [assumption|]. exfalso. apply E. symmetry. auto. }
    rewrite ?(popn_up dim Hdim) by lia.
    assert (Hhi' : iamlast || (up r l <? up r hibound) = true).
    { destruct iamlast; [reflexivity|]. cbn [orb]. apply N.ltb_lt.
      pose proof (up_mono dim Hdim r l k). pose proof (up_mono dim Hdim r k hibound (Hhi eq_refl)). lia. }
    rewrite Hhi', Bool.andb_true_r.
    destruct (step_ok st r b) as (st' & Es & HI'); auto; try lia.
    { intros Eb. apply Hb2. assumption. }
    { intros x Hx Ex. rewrite Hks in Hx. apply in_app_or in Hx. destruct Hx as [Hx|Hx]; [assumption|].
      exfalso. pose proof (up_mono dim Hdim r k x (Hrest x Hx)). pose proof (up_mono dim Hdim r l k). lia. }
    rewrite Es.
    assert (Hroot : (up r l =? key_root) = false).
    { apply N.eqb_neq. intros Ero.
      pose proof (up_range dim Hdim r l ltac:(lia) (HfK _ (HKL _ Hl))) as [A _].
      assert (B <= B ^ (D - r)).
      { rewrite <- (N.pow_1_r B) at 1. apply N.pow_le_mono_r; pose proof (B_ge2 dim Hdim); lia. }
      pose proof (B_ge2 dim Hdim). change key_root with 1 in Ero. lia. }
    rewrite Hroot, Bool.andb_false_r.
    rewrite ?(popn_up dim Hdim) by lia.
    apply IH; auto; try lia.
    + intros _. split; [lia|]. destruct b; [|apply Hb2; reflexivity].
      destruct (Hb1 eq_refl) as [_ [A|A]]; [lia|]. right. eapply many_up; eauto. lia.
Qed.

Lemma climb_final : iamlast = true -> rest = [] -> forall fuel st r b k,
  Inv st K L (closed l r) -> r <= D -> (N.to_nat (D - r) < fuel)%nat ->
  (b = true -> 1 <= r /\ internal K r (up r l)) ->
  (b = false -> r < D /\ ~ internal K r (up r l) /\ internal K (r + 1) (up (r + 1) l)) ->
  exists st' cd n, climb Sm fcc dim iam0 iamlast lobound hibound fuel true st r k l (up r k) (up r l) b
                = Some (st', cd, n, 1) /\ Inv st' K L lo_free.
Proof.
  intros Hlast Hrest. induction fuel as [|fuel IH]; intros st r b k HI Hr Hf Hb1 Hb2; [lia|].
  cbn [climb]. rewrite Bool.orb_true_r. rewrite ?(popn_up dim Hdim) by lia.
  rewrite Hlast. cbn [orb andb]. rewrite Bool.andb_true_r.
  destruct (step_ok st r b) as (st' & Es & HI'); auto; try lia.
  { intros Eb. apply Hb2. assumption. }
  { intros x Hx Ex. rewrite Hks, Hrest, app_nil_r in Hx. assumption. }
  rewrite Es. change key_root with 1.
  destruct (N.eqb_spec (up r l) 1) as [E|E].
  - rewrite E. exists st', r, (up r k). split; [reflexivity|].
    assert (r = D) as ->.
    { destruct (N.eq_dec r D); [assumption|]. exfalso.
      pose proof (up_range dim Hdim r l ltac:(lia) (HfK _ (HKL _ Hl))) as [A _].
      assert (B <= B ^ (D - r)).
      { rewrite <- (N.pow_1_r B) at 1. apply N.pow_le_mono_r; pose proof (B_ge2 dim Hdim); lia. }
      pose proof (B_ge2 dim Hdim). lia. }
    eapply Inv_ext; [exact HI'|]. intros r' q' Hr' _ _ _. split.
    + intros [_ A]. exact A.
    + intros A. split; [lia|assumption].
  - assert (Hrd : r < D).
    { destruct (N.eq_dec r D) as [->|]; [|lia]. exfalso. apply E, up_root; auto. apply HfK, HKL, Hl. }
    rewrite ?(popn_up dim Hdim) by lia.
    destruct (IH st' (r + 1) true k) as (st2 & cd & n & E2 & HI2); auto; try lia.
    + intros _. split; [lia|]. destruct b; [|apply Hb2; reflexivity].
      destruct (Hb1 eq_refl) as [_ [A|A]]; [lia|]. right. eapply many_up; eauto. lia.
    + rewrite Hlast in E2. exists st2, cd, n. auto.
Qed.
End Climb.

(** ** inserting a key *)
Section Insert.
Variables (k : N) (newent : bool) (l m rs : N).
Hypothesis Hk : full k.
Hypothesis HltK : forall x, In x K -> x < k.
Hypothesis Hl : (K = [] /\ m = D) \/ (In l K /\ forall x, In x K -> x <= l).
Hypothesis HLl : L = [] \/ exists L', L = L' ++ [l].
Hypothesis Hm : 1 <= m <= D.
Hypothesis Hm1 : forall r, r < m -> up r l <> up r k.
Hypothesis Hm2 : In l K -> forall r, m <= r -> up r l = up r k.
Hypothesis Hrs : m <= rs <= D.
Hypothesis Habove : forall r, rs < r <= D -> internal K r (up r k).
Hypothesis Hbelow : rs <> m -> L = [] \/ ~ internal K rs (up rs k).
Hypothesis HLnil : L = [] -> rs = D /\ newent = true.

Let K' := K ++ [k].
Let L' := L ++ (if newent then [k] else []).
Definition old : Prop := L <> [] /\ ~ internal K rs (up rs k).

Lemma l_in : L <> [] -> In l L.
Proof. intros H. destruct HLl as [E|[X E]]; [contradiction|]. rewrite E. apply in_or_app. right. left. reflexivity. Qed.

Lemma under_k x r : In x K -> r <= D -> up r x = up r k -> m <= r.
Proof.
  intros Hx Hr E. destruct Hl as [[E0 _]|[Hin Hmax]]; [rewrite E0 in Hx; destruct Hx|].
  destruct (N.lt_ge_cases r m) as [A|A]; [|assumption]. exfalso. apply (Hm1 r A).
  pose proof (up_mono dim Hdim r x l (Hmax x Hx)). pose proof (up_mono dim Hdim r l k).
  pose proof (HltK l Hin). lia.
Qed.

Lemma has_k r : m <= r -> r < D -> has K r (up r k).
Proof.
  intros H Hr. destruct Hl as [[_ E]|[Hin _]]; [lia|]. exists l. split; [assumption|]. auto.
Qed.

Lemma hasL_k r : m <= r -> L <> [] -> has L r (up r k).
Proof. intros H Hr. exists l. split; [apply l_in; assumption|]. apply Hm2; auto. apply HKL, l_in, Hr. Qed.

Lemma k_notin : ~ In k K.
Proof. intros H. pose proof (HltK k H). lia. Qed.

Lemma many_K' r p : many K' r p <-> many K r p \/ (p = up r k /\ has K r p).
Proof.
  unfold K'. split.
  - intros (a & b & Ha & Hb & Hn & Ea & Eb). apply in_app_or in Ha. apply in_app_or in Hb. cbn in Ha, Hb.
    destruct Ha as [Ha|[Ha|[]]], Hb as [Hb|[Hb|[]]].
    + left. exists a, b. auto.
    + right. subst. split; [auto|]. exists a. auto.
    + right. subst. split; [auto|]. exists b. auto.
    + congruence.
  - intros [(a & b & Ha & Hb & Hn & Ea & Eb)|[E (a & Ha & Ea)]].
    + exists a, b. repeat split; auto; apply in_or_app; auto.
    + exists a, k. repeat split; auto; try (apply in_or_app; cbn; auto).
      intros ->. apply k_notin. assumption.
Qed.

Lemma has_L' r p : has L' r p <-> has L r p \/ (newent = true /\ p = up r k).
Proof.
  unfold L'. split.
  - intros (a & Ha & Ea). apply in_app_or in Ha. destruct Ha as [Ha|Ha].
    + left. exists a. auto.
    + destruct newent; [|destruct Ha]. destruct Ha as [<-|[]]. right. auto.
  - intros [(a & Ha & Ea)|[-> ->]].
    + exists a. split; [apply in_or_app|]; auto.
    + exists k. split; [apply in_or_app; right; left|]; auto.
Qed.

Lemma internal_K' r p : internal K' r p <-> internal K r p \/ (p = up r k /\ has K r p).
Proof. unfold BuildTree_inv.internal. rewrite many_K'. tauto. Qed.

Lemma not_internal_below r : m <= rs -> rs <> m \/ ~ internal K m (up m k) -> L <> [] ->
  r <= rs -> ~ internal K r (up r k).
Proof.
  intros Hrs' H HL Hr Hi.
  assert (Hn : ~ internal K rs (up rs k)).
  { destruct (N.eq_dec rs m) as [->|E]; [tauto|]. destruct (Hbelow E); [contradiction|assumption]. }
  apply Hn. destruct Hi as [Hi|Hi]; [left; lia|].
  right. eapply many_up; eauto.
Qed.

Lemma only_l x : L <> [] -> ~ internal K rs (up rs k) -> In x K -> up rs x = up rs k -> x = l.
Proof.
  intros HL Hn Hx E. destruct (N.eq_dec x l); [assumption|]. exfalso. apply Hn. right.
  pose proof (HKL l (l_in HL)).
  exists x, l. repeat split; auto. apply Hm2; auto. lia.
Qed.

Lemma ce_iff r q : r <= D ->
  (cell_ex K' L' r q <->
   cell_ex K L r q \/ (q = up r k /\ m <= r <= rs) \/ (q = up r k /\ r = m - 1 /\ newent = true) \/
   (q = up r l /\ r = m - 1 /\ old)).
Proof.
  intros Hr. split.
  - intros [[-> ->]|(Hlt & Hhas & Hint)]; [left; left; auto|].
    apply has_L' in Hhas. apply internal_K' in Hint. destruct Hhas as [Hhas|[En Eq]].
    + (* a local key below *)
      destruct Hint as [Hint|[Eq Hhk]]; [left; right; auto|].
      assert (HL : L <> []) by (destruct Hhas as (x & Hx & _); intros E; rewrite E in Hx; destruct Hx).
      destruct Hhk as (y & Hy & Ey).
      assert (Hmr : m <= r + 1) by (apply (under_k y); auto; [lia|congruence]).
      destruct Hhas as (x & Hx & Ex).
      assert (Exp : up (r + 1) x = up (r + 1) k) by (rewrite (up_S dim Hdim), Ex, Eq; reflexivity).
      destruct (N.lt_ge_cases rs (r + 1)) as [A|A].
      * left. right. split; [assumption|]. split; [exists x; auto|]. rewrite Eq. apply Habove. lia.
      * assert (Hdec : rs = m /\ r + 1 = m \/ rs <> m) by lia.
        assert (Exr : up rs x = up rs k) by (apply (up_eq_mono dim Hdim (r + 1)); assumption).
        destruct (N.eq_dec rs m) as [Ers|Ers].
        -- assert (Er : r = m - 1) by lia.
           (* internal or not at rs: decided through the position of x *)
           destruct (N.eq_dec x l) as [->|Hxl].
           ++ destruct (internal_dec dim K (r + 1) (up (r + 1) k)) as [Hi|Hi].
              ** left. right. split; [assumption|]. split; [exists l; auto|]. rewrite Eq. assumption.
              ** right. right. right. split; [auto|]. split; [assumption|]. split; [assumption|].
                 replace rs with (r + 1) by lia. assumption.
           ++ left. right. split; [assumption|]. split; [exists x; auto|]. rewrite Eq. right.
              pose proof (HKL l (l_in HL)).
              exists x, l. repeat split; auto.
              { apply HKL. assumption. }
        -- destruct (Hbelow Ers) as [E|Hn]; [contradiction|].
           assert (x = l) as -> by (apply only_l; auto; apply HKL; assumption).
           destruct (N.eq_dec r (m - 1)) as [Er|Er].
           ++ right. right. right. split; [auto|]. split; [assumption|]. split; assumption.
           ++ right. left. split; [|lia]. rewrite <- Ex. apply Hm2; [apply HKL; assumption|lia].
    + (* the new key *)
      subst q.
      assert (Hmr : m <= r + 1).
      { destruct Hint as [[E|Hi]|[_ (y & Hy & Ey)]]; [lia| |].
        - apply many_has in Hi. destruct Hi as (y & Hy & Ey). apply (under_k y); auto; [lia|].
          rewrite (up_S dim Hdim r k). assumption.
        - apply (under_k y); auto; [lia|]. rewrite (up_S dim Hdim r k). assumption. }
      destruct (N.eq_dec r (m - 1)) as [Er|Er]; [right; right; left; auto|].
      destruct (N.lt_ge_cases rs r) as [A|A]; [|right; left; split; [reflexivity|lia]].
      left. right. split; [assumption|].
      assert (HL : L <> []) by (intros E; destruct (HLnil E); lia).
      split; [apply hasL_k; [lia|assumption]|].
      rewrite <- (up_S dim Hdim). apply Habove. lia.
  - assert (Hik : forall s, m <= s -> s <= D -> internal K' s (up s k)).
    { intros s Hs HsD. destruct (N.eq_dec s D) as [E|E]; [left; assumption|].
      apply internal_K'. right. split; [reflexivity|]. apply has_k; lia. }
    intros [H|[[-> H]|[(-> & Er & En)|(-> & Er & HL & Ho)]]].
    + destruct H as [H|(Hlt & Hhas & Hint)]; [left; assumption|].
      right. split; [assumption|]. split; [apply has_L'; auto|apply internal_K'; auto].
    + destruct (N.eq_dec r D) as [->|E]; [left; split; [reflexivity|apply up_root; assumption]|].
      right. split; [lia|]. split.
      * apply has_L'. destruct newent eqn:En; [right; auto|]. left. apply hasL_k; [lia|].
        intros HL. destruct (HLnil HL). discriminate.
      * rewrite <- (up_S dim Hdim). apply Hik; lia.
    + right. split; [lia|]. split; [apply has_L'; auto|].
      rewrite <- (up_S dim Hdim). apply Hik; lia.
    + right. split; [lia|]. split; [apply has_L'; left; exists l; split; [apply l_in; assumption|reflexivity]|].
      rewrite <- (up_S dim Hdim). rewrite (Hm2 (HKL _ (l_in HL)) (r + 1)) by lia. apply Hik; lia.
Qed.
Lemma nb : {newent = true} + {newent = false}.
Proof. destruct newent; auto. Qed.

Lemma path_dec q : {s | m <= s <= rs /\ q = up s k} + {forall s, m <= s <= rs -> q <> up s k}.
Proof.
  assert (G : forall n, {s | m <= s /\ s < m + N.of_nat n /\ q = up s k} +
                        {forall s, m <= s -> s < m + N.of_nat n -> q <> up s k}).
  { induction n as [|n IH].
    - right. intros. lia.
    - destruct IH as [[s Hs]|H]; [left; exists s; lia|].
      destruct (N.eq_dec q (up (m + N.of_nat n) k)) as [E|E].
      + left. exists (m + N.of_nat n). split; [lia|]. split; [lia|assumption].
      + right. intros s Hs1 Hs2. destruct (N.eq_dec s (m + N.of_nat n)) as [->|Hne]; [assumption|]. apply H; lia. }
  destruct (G (N.to_nat (rs + 1 - m))) as [[s Hs]|H].
  - left. exists s. split; [lia|tauto].
  - right. intros s Hs. apply H; lia.
Qed.

Lemma up_inj s s' : s <= D -> s' <= D -> up s k = up s' k -> s = s'.
Proof. intros. eapply (up_level dim Hdim s s' k k); auto. Qed.

Lemma descend_ok : forall n fuel t cd c, cd = m + N.of_nat n -> cd <= rs -> (n < fuel)%nat ->
  tfind t (up cd k) = Some c -> (n <> 0%nat -> c_node c = None) ->
  (forall s, m <= s < cd -> tfind t (up s k) = None) ->
  exists t', descend dim fuel t cd k l (up cd k) = Some (t', m - 1, up (m - 1) k, up (m - 1) l, up m k) /\
    (forall s, m <= s <= cd -> exists c', tfind t' (up s k) = Some c' /\
        c_node c' = (if s =? cd then c_node c else None) /\
        c_ent c' = (if (s =? cd) && (n =? 0)%nat then c_ent c else None) /\
        forall d, N.testbit (c_word c') d = true <->
          (s = cd /\ N.testbit (c_word c) d = true) \/ (m < s /\ d = digit (up (s - 1) k))) /\
    (forall q, (forall s, m <= s <= cd -> q <> up s k) -> tfind t' q = tfind t q).
Proof.
  induction n as [|n IH]; intros fuel t cd c Ecd Hcd Hf Hc Hn Ht;
    (destruct fuel as [|fuel]; [lia|]); cbn [descend];
    (replace (cd =? 0) with false by (symmetry; apply N.eqb_neq; lia));
    rewrite !(popn_up dim Hdim) by lia.
  - replace cd with m by lia.
    destruct (N.eqb_spec (up (m - 1) k) (up (m - 1) l)) as [E|E].
    { exfalso. apply (Hm1 (m - 1)); [lia|auto]. }
    cbn [negb]. exists t. split; [reflexivity|]. split; [|reflexivity].
    intros s Hs. assert (s = m) as -> by lia. exists c. replace cd with m in Hc by lia.
    rewrite N.eqb_refl. cbn. split; [assumption|]. repeat split; auto. intros [[_ A]|[A _]]; [assumption|lia].
  - assert (HKne : In l K) by (destruct Hl as [[_ E]|[E _]]; [lia|assumption]).
    rewrite (Hm2 HKne (cd - 1)) by lia. rewrite N.eqb_refl. cbn [negb].
    unfold t_add_child. rewrite Hc. unfold t_clear_ent. rewrite tfind_tset, N.eqb_refl, Hc. cbn [c_node c_word].
    rewrite (Hn ltac:(lia)).
    set (t2 := tset (tset t _ _) _ _).
    assert (Ht2 : forall q, tfind t2 q =
      if q =? up cd k then Some (mkcell (add_child (c_word c) (digit (up (cd - 1) k))) None None) else tfind t q).
    { intros q. unfold t2. rewrite !tfind_tset, N.eqb_refl, Hc.
      destruct (N.eqb_spec q (up cd k)); reflexivity. }
    set (t3 := templace t2 (up (cd - 1) k) new_cell).
    assert (Hne : forall s, m <= s < cd -> up s k <> up cd k).
    { intros s Hs E. apply up_inj in E; lia. }
    assert (Ht3 : forall q, tfind t3 q =
      if q =? up cd k then Some (mkcell (add_child (c_word c) (digit (up (cd - 1) k))) None None)
      else if q =? up (cd - 1) k then Some new_cell else tfind t q).
    { intros q. unfold t3. rewrite tfind_templace, Ht2.
      destruct (N.eqb_spec q (up cd k)) as [E|E]; [reflexivity|].
      destruct (N.eqb_spec q (up (cd - 1) k)) as [E'|E'].
      - rewrite E', Ht by lia. reflexivity.
      - destruct (tfind t q); reflexivity. }
    destruct (IH fuel t3 (cd - 1) new_cell) as (t' & Ed & Hp & Ho); try lia.
    { rewrite Ht3, N.eqb_refl. destruct (N.eqb_spec (up (cd - 1) k) (up cd k)) as [E|E]; [|reflexivity].
      exfalso. apply (Hne (cd - 1)); [lia|assumption]. }
    { reflexivity. }
    { intros s Hs. rewrite Ht3. destruct (N.eqb_spec (up s k) (up cd k)) as [E|E].
      - exfalso. apply (Hne s); [lia|assumption].
      - destruct (N.eqb_spec (up s k) (up (cd - 1) k)) as [E'|E'].
        + apply up_inj in E'; lia.
        + apply Ht. lia. }
    exists t'. split; [exact Ed|]. split.
    + intros s Hs. destruct (N.eq_dec s cd) as [->|Hsc].
      * exists (mkcell (add_child (c_word c) (digit (up (cd - 1) k))) None None).
        rewrite Ho, Ht3, N.eqb_refl.
        2:{ intros s Hs' E. apply up_inj in E; lia. }
        cbn [c_node c_ent c_word]. rewrite N.eqb_refl. cbn [andb].
        replace (Datatypes.S n =? 0)%nat with false by reflexivity.
        repeat split; auto; intros Hd.
        -- rewrite testbit_add_child, Bool.orb_true_iff, N.eqb_eq in Hd. destruct Hd; [left; auto|right; split; [lia|assumption]].
        -- rewrite testbit_add_child, Bool.orb_true_iff, N.eqb_eq. clear - Hd. tauto.
      * destruct (Hp s ltac:(lia)) as (c' & E1 & E2 & E3 & E4). exists c'.
        replace (s =? cd) with false by (symmetry; apply N.eqb_neq; assumption).
        split; [assumption|]. split; [rewrite E2; destruct (s =? cd - 1); reflexivity|].
        split; [rewrite E3; destruct ((s =? cd - 1) && (n =? 0)%nat); reflexivity|].
        intros d. rewrite E4. change (c_word new_cell) with 0. rewrite N.bits_0.
        split; [intros [[_ A]|A]; [discriminate|right; assumption]|intros [[A _]|A]; [contradiction|right; assumption]].
    + intros q Hq. rewrite Ho, Ht3.
      * destruct (N.eqb_spec q (up cd k)) as [E|E]; [exfalso; apply (Hq cd); [lia|assumption]|].
        destruct (N.eqb_spec q (up (cd - 1) k)) as [E'|E']; [exfalso; apply (Hq (cd - 1)); [lia|assumption]|].
        reflexivity.
      * intros s Hs. apply Hq. lia.
Qed.

(** The table manipulation of L951-996 after the climb. *)
Definition insert (t : table) (i : nat) : option table :=
  par <- tfind t (up rs k) ;;
  d <- descend dim 66 t rs k l (up rs k) ;;
  let '(t, cd, nkey, lastnkey, parent) := d in
  t <- (match c_ent par with
        | Some _ =>
          t1 <- t_add_child t parent (key_last_value dim lastnkey) ;;
          t2 <- t_clear_ent t1 parent ;;
          Some (templace t2 lastnkey (ent_cell (i - 1)))
        | None => Some t
        end) ;;
  if newent then
    t1 <- t_add_child t parent (key_last_value dim nkey) ;;
    Some (templace t1 nkey (ent_cell i))
  else Some t.

Lemma lk_ne : up (m - 1) l <> up (m - 1) k.
Proof. apply Hm1. lia. Qed.

Lemma path_ne s : m <= s <= rs -> up s k <> up (m - 1) k.
Proof. intros Hs E. apply up_inj in E; lia. Qed.

Lemma path_ne_l s : old -> m <= s <= rs -> up s k <> up (m - 1) l.
Proof.
  intros Ho Hs E. apply (up_level dim Hdim) in E; try lia; [assumption|].
  apply HfK, HKL, l_in, Ho.
Qed.

Section Table.
Variables (t : table) (c : cell).
Hypothesis Hc : tfind t (up rs k) = Some c.
Hypothesis Hcn : c_node c = None.
Hypothesis Hold : c_ent c <> None <-> old.
Hypothesis Habs : forall s, m <= s < rs -> tfind t (up s k) = None.
Hypothesis Habs1 : tfind t (up (m - 1) k) = None.
Hypothesis Habs2 : old -> tfind t (up (m - 1) l) = None.

Lemma insert_tab i : exists t', insert t i = Some t' /\
  (exists td, descend dim 66 t rs k l (up rs k) = Some (td, m - 1, up (m - 1) k, up (m - 1) l, up m k)) /\
  (forall s, m <= s <= rs -> exists c', tfind t' (up s k) = Some c' /\
      c_node c' = None /\ c_ent c' = None /\
      forall d, N.testbit (c_word c') d = true <->
        (s = rs /\ N.testbit (c_word c) d = true) \/ (m < s /\ d = digit (up (s - 1) k)) \/
        (s = m /\ old /\ d = digit (up (m - 1) l)) \/ (s = m /\ newent = true /\ d = digit (up (m - 1) k))) /\
  (newent = true -> tfind t' (up (m - 1) k) = Some (ent_cell i)) /\
  (old -> tfind t' (up (m - 1) l) = Some (ent_cell (i - 1))) /\
  (forall q, (forall s, m <= s <= rs -> q <> up s k) -> (newent = true -> q <> up (m - 1) k) ->
     (old -> q <> up (m - 1) l) -> tfind t' q = tfind t q).
Proof.
  unfold insert. rewrite Hc.
  destruct (descend_ok (N.to_nat (rs - m)) 66 t rs c) as (t1 & E1 & Hp & Ho); auto; try lia.
  { pose proof (D_le dim Hdim). lia. }
  rewrite E1.
  (* after the old entity *)
  assert (S1 : exists t2, (match c_ent c with
      | Some _ => t1 <- t_add_child t1 (up m k) (digit (up (m - 1) l)) ;;
                  t2 <- t_clear_ent t1 (up m k) ;; Some (templace t2 (up (m - 1) l) (ent_cell (i - 1)))
      | None => Some t1 end) = Some t2 /\
      (forall s, m <= s <= rs -> exists c', tfind t2 (up s k) = Some c' /\
         c_node c' = None /\ c_ent c' = None /\
         forall d, N.testbit (c_word c') d = true <->
         (s = rs /\ N.testbit (c_word c) d = true) \/ (m < s /\ d = digit (up (s - 1) k)) \/
         (s = m /\ old /\ d = digit (up (m - 1) l))) /\
      (old -> tfind t2 (up (m - 1) l) = Some (ent_cell (i - 1))) /\
      (forall q, (forall s, m <= s <= rs -> q <> up s k) -> (old -> q <> up (m - 1) l) -> tfind t2 q = tfind t q)).
  { destruct (c_ent c) as [e|] eqn:Ee.
    - assert (Hol : old) by (apply Hold; discriminate).
      destruct (Hp m ltac:(lia)) as (cm & F1 & F2 & F3 & F4).
      assert (F2' : c_node cm = None) by (rewrite F2; destruct (m =? rs); auto).
      unfold t_add_child, t_clear_ent. rewrite F1, tfind_tset, N.eqb_refl, F1. cbn [c_node c_word]. rewrite F2'.
      eexists. split; [reflexivity|]. set (t2 := tset (tset t1 _ _) _ _).
      assert (Ht2 : forall q, tfind t2 q =
        if q =? up m k then Some (mkcell (add_child (c_word cm) (digit (up (m - 1) l))) None None) else tfind t1 q).
      { intros q. unfold t2. rewrite !tfind_tset, N.eqb_refl, F1.
        destruct (N.eqb_spec q (up m k)); reflexivity. }
      split; [|split].
      + intros s Hs. rewrite tfind_templace, Ht2. destruct (N.eqb_spec (up s k) (up m k)) as [E|E].
        * apply up_inj in E; [|lia|lia]. subst s. eexists. split; [reflexivity|]. cbn [c_node c_ent c_word].
          split; [reflexivity|]. split; [reflexivity|]. intros d.
          rewrite testbit_add_child, Bool.orb_true_iff, N.eqb_eq, F4. clear - Hol. tauto.
        * destruct (Hp s Hs) as (c' & G1 & G2 & G3 & G4). rewrite G1. exists c'. split; [reflexivity|].
          split; [rewrite G2; destruct (s =? rs); auto|]. split.
          -- rewrite G3. destruct (N.eqb_spec s rs) as [Es|Es]; [|reflexivity]. cbn [andb].
             destruct (Nat.eqb_spec (N.to_nat (rs - m)) 0); [|reflexivity]. exfalso. apply E. f_equal. lia.
          -- intros d. rewrite G4. split; [clear; tauto|]. intros [A|[A|[A _]]]; auto. subst s. congruence.
      + intros _. rewrite tfind_templace, Ht2.
        destruct (N.eqb_spec (up (m - 1) l) (up m k)) as [E|E].
        * exfalso. symmetry in E. revert E. apply path_ne_l; [assumption|lia].
        * rewrite Ho; [|intros s Hs E'; symmetry in E'; revert E'; apply path_ne_l; assumption].
          rewrite (Habs2 Hol), N.eqb_refl. reflexivity.
      + intros q Hq1 Hq2. rewrite tfind_templace, Ht2.
        destruct (N.eqb_spec q (up m k)) as [E|E]; [exfalso; apply (Hq1 m); [lia|assumption]|].
        destruct (N.eqb_spec q (up (m - 1) l)) as [E'|E']; [exfalso; apply Hq2; assumption|].
        rewrite Ho by assumption. destruct (tfind t q); reflexivity.
    - assert (Hol : ~ old) by (intros H; apply Hold in H; congruence).
      exists t1. split; [reflexivity|]. split; [|split; [intros; contradiction|auto]].
      intros s Hs. destruct (Hp s Hs) as (c' & G1 & G2 & G3 & G4). exists c'. split; [assumption|].
      split; [rewrite G2; destruct (s =? rs); auto|].
      split; [rewrite G3; destruct ((s =? rs) && (N.to_nat (rs - m) =? 0)%nat); reflexivity|].
      intros d. rewrite G4. clear - Hol. tauto. }
  destruct S1 as (t2 & E2 & Hp2 & Hl2 & Ho2). rewrite E2.
  destruct nb as [En|En]; rewrite En.
  - destruct (Hp2 m ltac:(lia)) as (cm & F1 & F2 & F3 & F4).
    unfold t_add_child. rewrite F1. eexists. split; [reflexivity|]. split; [exists t1; reflexivity|].
    set (t3 := tset t2 _ _).
    assert (Ht3 : forall q, tfind t3 q =
      if q =? up m k then Some (mkcell (add_child (c_word cm) (digit (up (m - 1) k))) None None) else tfind t2 q).
    { intros q. unfold t3. rewrite !tfind_tset, F1, F2, F3. destruct (N.eqb_spec q (up m k)); reflexivity. }
    split; [|split; [|split]].
    + intros s Hs. rewrite tfind_templace, Ht3. destruct (N.eqb_spec (up s k) (up m k)) as [E|E].
      * apply up_inj in E; [|lia|lia]. subst s. eexists. split; [reflexivity|]. cbn [c_node c_ent c_word].
        split; [reflexivity|]. split; [reflexivity|]. intros d.
        rewrite testbit_add_child, Bool.orb_true_iff, N.eqb_eq, F4. clear. tauto.
      * destruct (Hp2 s Hs) as (c' & G1 & G2 & G3 & G4). rewrite G1. exists c'. repeat split; auto.
        -- intros Hd. apply G4 in Hd. clear - Hd. tauto.
        -- intros [A|[A|[A|[A _]]]]; try (apply G4; clear - A; tauto). subst s. congruence.
    + intros _. rewrite tfind_templace, Ht3.
      destruct (N.eqb_spec (up (m - 1) k) (up m k)) as [E|E].
      * apply up_inj in E; lia.
      * rewrite Ho2, Habs1, N.eqb_refl; [reflexivity| |].
        -- intros s Hs E'. symmetry in E'. revert E'. apply path_ne. assumption.
        -- intros _ E'. apply lk_ne. auto.
    + intros Hol. rewrite tfind_templace, Ht3.
      destruct (N.eqb_spec (up (m - 1) l) (up m k)) as [E|E].
      * exfalso. symmetry in E. revert E. apply path_ne_l; [assumption|lia].
      * rewrite (Hl2 Hol). reflexivity.
    + intros q Hq1 Hq2 Hq3. rewrite tfind_templace, Ht3.
      destruct (N.eqb_spec q (up m k)) as [E|E]; [exfalso; apply (Hq1 m); [lia|assumption]|].
      destruct (N.eqb_spec q (up (m - 1) k)) as [E'|E']; [exfalso; apply Hq2; auto|].
      rewrite Ho2 by assumption. destruct (tfind t q); reflexivity.
  - exists t2. split; [reflexivity|]. split; [exists t1; reflexivity|]. split; [|split; [discriminate|split]].
    + intros s Hs. destruct (Hp2 s Hs) as (c' & G1 & G2 & G3 & G4). exists c'. repeat split; auto.
      * intros Hd. apply G4 in Hd. clear - Hd. tauto.
      * intros [A|[A|[A|[_ [A _]]]]]; try (apply G4; clear - A; tauto). discriminate.
    + exact Hl2.
    + intros. apply Ho2; auto.
Qed.
End Table.

Lemma child_of_digit s x d : 1 <= s -> d < B -> (up s x * B + d = up (s - 1) x <-> d = digit (up (s - 1) x)).
Proof.
  intros Hs Hd. rewrite (up_digit dim Hdim (s - 1) x) at 1. replace (s - 1 + 1) with s by lia. split.
  - intros E. apply (child_digit dim) in E; [tauto|assumption|apply last_value_lt; assumption].
  - intros ->. reflexivity.
Qed.

Lemma insert_inv st : Inv st K L (closed l rs) ->
  exists t', insert (st_tab st) (length L) = Some t' /\
    (exists td, descend dim 66 (st_tab st) rs k l (up rs k) = Some (td, m - 1, up (m - 1) k, up (m - 1) l, up m k)) /\
    Inv (mkst t' (st_cofm st)) K' L' (closed k (m - 1)).
Proof.
  intros HI.
  assert (Hexrs : cell_ex K L rs (up rs k)).
  { destruct (N.eq_dec rs D) as [->|E]; [left; split; [reflexivity|apply up_root; assumption]|].
    right. split; [lia|]. split.
    - apply hasL_k; [lia|]. intros HL. destruct (HLnil HL). contradiction.
    - rewrite <- (up_S dim Hdim). apply Habove. lia. }
  destruct (inv_complete _ _ _ _ _ _ _ _ HI rs (up rs k) ltac:(lia) Hexrs) as (c & Hc & He & Hw & Hnd').
  assert (Hcn : c_node c = None).
  { destruct (c_node c); [|reflexivity]. exfalso. destruct Hnd' as (_ & (x & Hx & _) & [A _] & _).
    apply A. split; [lia|]. apply Hm2; [|lia]. apply HKL, l_in. intros E. rewrite E in Hx. destruct Hx. }
  assert (Hold : c_ent c <> None <-> old).
  { split.
    - intros Hne. destruct (c_ent c) as [e|]; [|congruence].
      destruct (proj1 (He e) eq_refl) as (A1 & A2 & x & A3 & A4). split.
      + intros E. rewrite E in A3. destruct e; discriminate.
      + intros [Hi|Hi]; [lia|contradiction].
    - intros [HL Hni]. destruct HLl as [E|[L0 E]]; [contradiction|].
      assert (Hx : c_ent c = Some (length L0)); [|congruence].
      apply He. split; [unfold BuildTree_inv.internal in Hni; lia|]. split; [unfold BuildTree_inv.internal in Hni; tauto|].
      exists l. split.
      + rewrite E, nth_error_app2, Nat.sub_diag by lia. reflexivity.
      + apply Hm2; [apply HKL, l_in, HL|lia]. }
  assert (Hlast : old -> nth_error L (length L - 1) = Some l).
  { intros [HL _]. destruct HLl as [E|[L0 E]]; [contradiction|].
    rewrite E, app_length, nth_error_app2 by (cbn; lia). cbn [length].
    replace (length L0 + 1 - 1 - length L0)%nat with 0%nat by lia. reflexivity. }
  assert (Habsent : forall r q, r <= D -> at_level dim r q -> ~ cell_ex K L r q -> tfind (st_tab st) q = None).
  { intros r q Hr Hlev Hne. destruct (tfind (st_tab st) q) as [c'|] eqn:E; [|reflexivity]. exfalso.
    destruct (inv_sound _ _ _ _ _ _ _ _ HI q c' E) as (r' & Hr' & Hex').
    assert (r' = r) as ->; [|contradiction].
    apply (level_unique dim Hdim r' r q); auto. apply (cell_ex_level dim Hdim K L); auto. apply HfL. }
  assert (Hnocell : forall s, m <= s < rs -> ~ cell_ex K L s (up s k)).
  { intros s Hs [[E _]|(_ & Hh & Hi)]; [lia|].
    assert (HL : L <> []) by (intros E; rewrite E in Hh; destruct Hh as (x & [] & _)).
    rewrite <- (up_S dim Hdim) in Hi. revert Hi. apply not_internal_below; auto; lia. }
  assert (Hnok : ~ cell_ex K L (m - 1) (up (m - 1) k)).
  { intros [[E _]|(_ & (x & Hx & Ex) & _)]; [lia|]. apply HKL in Hx. apply (under_k x) in Ex; auto; lia. }
  assert (Hnol : old -> ~ cell_ex K L (m - 1) (up (m - 1) l)).
  { intros [HL Hni] [[E _]|(_ & _ & Hi)]; [lia|]. rewrite <- (up_S dim Hdim) in Hi.
    rewrite (Hm2 (HKL _ (l_in HL))) in Hi by lia. revert Hi.
    apply not_internal_below; auto; try lia.
    destruct (N.eq_dec rs m) as [E|E]; [right; rewrite <- E; assumption|left; assumption]. }
  assert (Hlevk : forall s, s <= D -> at_level dim s (up s k)) by (intros; apply up_range; auto).
  assert (Hlevl : old -> at_level dim (m - 1) (up (m - 1) l)).
  { intros [HL _]. apply up_range; auto; [lia|]. apply HfK, HKL, l_in, HL. }
  destruct (insert_tab (st_tab st) c Hc Hcn Hold) with (i := length L) as (t' & Et & Hdn & Hp & Hnk & Hnl & Ho).
  { intros s Hs. apply (Habsent s); [lia|apply Hlevk; lia|auto]. }
  { apply (Habsent (m - 1)); [lia|apply Hlevk; lia|auto]. }
  { intros H. apply (Habsent (m - 1)); [lia|auto|auto]. }
  exists t'. split; [exact Et|]. split; [exact Hdn|].
  (* classification of the keys of the new table *)
  assert (Hcase : forall q,
     (exists s, m <= s <= rs /\ q = up s k) \/ (newent = true /\ q = up (m - 1) k) \/ (old /\ q = up (m - 1) l) \/
     ((forall s, m <= s <= rs -> q <> up s k) /\ (newent = true -> q <> up (m - 1) k) /\ (old -> q <> up (m - 1) l))).
  { intros q. destruct (path_dec q) as [[s Hs]|Hnp]; [left; exists s; exact Hs|].
    destruct (N.eq_dec q (up (m - 1) k)) as [E|E].
    - destruct nb as [En|En]; [right; left; auto|].
      right. right. right. split; [assumption|]. split; [congruence|]. intros _. subst q.
      intros E'. apply lk_ne. auto.
    - destruct (N.eq_dec q (up (m - 1) l)) as [E'|E'].
      + destruct (c_ent c) eqn:Ee.
        * right. right. left. split; [apply Hold; discriminate|assumption].
        * right. right. right. split; [assumption|]. split; [auto|]. intros H. apply Hold in H. congruence.
      + right. right. right. auto. }
  assert (Hsame : forall j q c', tfind t' q = Some c' -> c_node c' = Some j -> tfind (st_tab st) q = Some c').
  { intros j q c' Hq Hj. destruct (Hcase q) as [(s & Hs & ->)|[[En ->]|[[Ho' ->]|(A1 & A2 & A3)]]].
    - destruct (Hp s Hs) as (c2 & E1 & E2 & _). rewrite Hq in E1. injection E1 as <-. congruence.
    - rewrite (Hnk En) in Hq. injection Hq as <-. discriminate.
    - rewrite (Hnl Ho') in Hq. injection Hq as <-. discriminate.
    - rewrite Ho in Hq; auto. }
  constructor; cbn [st_tab st_cofm].
  - (* sound *)
    intros q c' Hq. destruct (Hcase q) as [(s & Hs & ->)|[[En ->]|[[Ho' ->]|(A1 & A2 & A3)]]].
    + exists s. split; [lia|]. apply ce_iff; [lia|]. right. left. auto.
    + exists (m - 1). split; [lia|]. apply ce_iff; [lia|]. right. right. left. auto.
    + exists (m - 1). split; [lia|]. apply ce_iff; [lia|]. right. right. right. auto.
    + rewrite Ho in Hq by auto. destruct (inv_sound _ _ _ _ _ _ _ _ HI q c' Hq) as (r & Hr & Hex).
      exists r. split; [assumption|]. apply ce_iff; auto.
  - (* complete *)
    intros r q Hr Hex.
    assert (HfL' : Forall full L').
    { unfold L'. apply Forall_app. split; [apply HfL|]. destruct nb as [En|En]; rewrite En; auto. }
    assert (Hlev : at_level dim r q) by (apply (cell_ex_level dim Hdim K' L'); assumption).
    destruct (Hcase q) as [(s & Hs & E)|[[En E]|[[Ho' E]|(A1 & A2 & A3)]]].
    + (* on the path *)
      assert (r = s) as ->. { apply (level_unique dim Hdim r s q); auto; [lia|]. rewrite E. apply Hlevk. lia. }
      subst q. destruct (Hp s Hs) as (c' & E1 & E2 & E3 & E4). exists c'. split; [assumption|].
      split; [|split].
      * intros i. rewrite E3. split; [discriminate|]. intros (B1 & B2 & _). exfalso. apply B2.
        apply many_K'. right. split; [reflexivity|]. apply has_k; lia.
      * intros d. rewrite E4. split.
        -- intros H. assert (Hd : d < B).
           { destruct H as [[_ H]|[[_ ->]|[(_ & _ & ->)|(_ & _ & ->)]]]; try (apply last_value_lt; assumption).
             apply Hw in H. tauto. }
           split; [assumption|]. split; [lia|]. apply ce_iff; [lia|].
           destruct H as [[-> H]|[[H1 H2]|[(-> & H1 & H2)|(-> & H1 & H2)]]].
           ++ left. apply Hw in H. tauto.
           ++ right. left. split; [|lia]. apply child_of_digit; auto. lia.
           ++ right. right. right. split; [|auto].
              rewrite <- (Hm2 (HKL _ (l_in (proj1 H1))) m) by lia. apply child_of_digit; auto. lia.
           ++ right. right. left. split; [|auto]. apply child_of_digit; auto. lia.
        -- intros (Hd & Hs1 & H). apply ce_iff in H; [|lia].
           destruct H as [H|[[H1 H2]|[(H1 & H2 & H3)|(H1 & H2 & H3)]]].
           ++ destruct (N.eq_dec s rs) as [Es|Es].
              ** left. split; [assumption|]. apply Hw. rewrite <- Es. auto.
              ** exfalso. destruct H as [[H _]|(_ & Hh & Hi)]; [lia|].
                 rewrite (child_parent dim) in Hi by assumption. replace (s - 1 + 1) with s in Hi by lia.
                 assert (HL : L <> []) by (intros EL; rewrite EL in Hh; destruct Hh as (x & [] & _)).
                 revert Hi. apply not_internal_below; auto; lia.
           ++ right. left. split; [lia|]. apply child_of_digit in H1; auto.
           ++ right. right. right. assert (s = m) as -> by lia. split; [reflexivity|]. split; [assumption|].
              apply child_of_digit in H1; auto.
           ++ right. right. left. assert (s = m) as -> by lia. split; [reflexivity|]. split; [assumption|].
              rewrite <- (Hm2 (HKL _ (l_in (proj1 H3))) m) in H1 by lia. apply child_of_digit in H1; auto.
      * rewrite E2. intros (_ & _ & [A _]). apply A. split; [lia|reflexivity].
    + (* the new leaf *)
      assert (r = m - 1) as ->. { apply (level_unique dim Hdim r (m - 1) q); auto; [lia|]. rewrite E. apply Hlevk. lia. }
      subst q. rewrite (Hnk En). eexists. split; [reflexivity|].
      assert (Hnm : ~ many K' (m - 1) (up (m - 1) k)).
      { intros H. apply many_K' in H. destruct H as [H|[_ H]].
        - apply many_has in H. destruct H as (x & Hx & Ex). apply (under_k x) in Ex; auto; lia.
        - destruct H as (x & Hx & Ex). apply (under_k x) in Ex; auto; lia. }
      split; [|split]; cbn [ent_cell c_ent c_word c_node].
      * intros i. unfold L'. rewrite En. split.
        -- intros Ei. injection Ei as <-. split; [lia|]. split; [assumption|]. exists k.
           rewrite nth_error_app2, Nat.sub_diag by lia. auto.
        -- intros (_ & _ & x & Hx & Ex). destruct (Nat.lt_ge_cases i (length L)) as [Hi|Hi].
           ++ rewrite nth_error_app1 in Hx by assumption. apply nth_error_In, HKL in Hx.
              apply (under_k x) in Ex; auto; lia.
           ++ rewrite nth_error_app2 in Hx by assumption.
              destruct (i - length L)%nat as [|n] eqn:Ei; [f_equal; lia|]. cbn in Hx. destruct n; discriminate.
      * intros d. change hcell_new with 0. rewrite N.bits_0. split; [discriminate|].
        intros (Hd & Hd1 & [[H _]|(_ & _ & H)]); [lia|].
        rewrite (child_parent dim) in H by assumption. replace (m - 1 - 1 + 1) with (m - 1) in H by lia.
        destruct H as [H|H]; [lia|contradiction].
      * intros ([H|H] & _); [lia|contradiction].
    + (* the old leaf, pushed down *)
      assert (r = m - 1) as ->. { apply (level_unique dim Hdim r (m - 1) q); auto; [lia|]. rewrite E. apply Hlevl. assumption. }
      subst q. rewrite (Hnl Ho'). eexists. split; [reflexivity|].
      pose proof (HKL _ (l_in (proj1 Ho'))) as HlK.
      assert (Hu : forall x, In x K -> up (m - 1) x = up (m - 1) l -> x = l).
      { intros x Hx Ex. apply only_l; auto; try apply Ho'.
        rewrite <- (Hm2 HlK rs) by lia. apply (up_eq_mono dim Hdim (m - 1)); [lia|assumption]. }
      assert (Hnm : ~ many K' (m - 1) (up (m - 1) l)).
      { intros H. apply many_K' in H. destruct H as [(a & b & Ha & Hb & Hne & Ea & Eb)|[H _]].
        - apply Hne. rewrite (Hu a), (Hu b); auto.
        - apply lk_ne. assumption. }
      split; [|split]; cbn [ent_cell c_ent c_word c_node].
      * intros i. split.
        -- intros Ei. injection Ei as <-. split; [lia|]. split; [assumption|]. exists l. split; [|reflexivity].
           unfold L'. rewrite nth_error_app1; [apply Hlast; assumption|].
           apply nth_error_Some. rewrite (Hlast Ho'). discriminate.
        -- intros (_ & _ & x & Hx & Ex). f_equal.
           assert (Hil : (i < length L)%nat).
           { destruct (Nat.lt_ge_cases i (length L)) as [Hi|Hi]; [assumption|]. exfalso.
             unfold L' in Hx. rewrite nth_error_app2 in Hx by assumption. apply nth_error_In in Hx.
             destruct nb as [En|En]; rewrite En in Hx; [|destruct Hx]. destruct Hx as [<-|[]]. apply lk_ne. auto. }
           unfold L' in Hx. rewrite nth_error_app1 in Hx by assumption.
           assert (x = l) as ->. { apply Hu; auto. apply HKL. eapply nth_error_In; eauto. }
           assert (HndL : NoDup L) by (apply NoDup_app_l with rest; rewrite <- Hks; assumption).
           rewrite NoDup_nth_error in HndL. symmetry. apply HndL; [assumption|]. rewrite Hx, (Hlast Ho'). reflexivity.
      * intros d. change hcell_new with 0. rewrite N.bits_0. split; [discriminate|].
        intros (Hd & Hd1 & [[H _]|(_ & _ & H)]); [lia|].
        rewrite (child_parent dim) in H by assumption. replace (m - 1 - 1 + 1) with (m - 1) in H by lia.
        destruct H as [H|H]; [lia|contradiction].
      * intros ([H|H] & _); [lia|contradiction].
    + (* untouched cells *)
      assert (Hex0 : cell_ex K L r q).
      { apply ce_iff in Hex; [|assumption]. destruct Hex as [H|[[H1 H2]|[(H1 & H2 & H3)|(H1 & H2 & H3)]]]; [assumption| | |].
        - exfalso. apply (A1 r); assumption.
        - exfalso. apply A2; [assumption|]. rewrite <- H2. assumption.
        - exfalso. apply A3; [assumption|]. rewrite <- H2. assumption. }
      destruct (inv_complete _ _ _ _ _ _ _ _ HI r q Hr Hex0) as (c' & Hc' & B1 & B2 & B3).
      exists c'. split; [rewrite Ho; auto|].
      assert (Hq : (q <> up r k) \/ (q = up r k /\ rs < r)).
      { destruct (N.eq_dec q (up r k)) as [E|E]; [|left; assumption]. right. split; [assumption|].
        destruct (N.lt_ge_cases rs r) as [H|H]; [assumption|]. exfalso.
        destruct (N.lt_ge_cases r m) as [H'|H'].
        - destruct Hex0 as [[E0 _]|(_ & (x & Hx & Ex) & _)]; [lia|].
          apply HKL in Hx. assert (m <= r) by (apply (under_k x); auto; congruence). lia.
        - apply (A1 r); auto. }
      assert (Hik : forall j, j = q -> internal K' r j <-> internal K r j).
      { intros j ->. rewrite internal_K'. split; [|intros HH; left; exact HH]. intros [H|[H _]]; [assumption|].
        destruct Hq as [Hq|[Hq Hr']]; [contradiction|]. rewrite H. apply Habove. lia. }
      assert (Hmk : r < D -> (many K' r q <-> many K r q)).
      { intros HrD. specialize (Hik q eq_refl). unfold BuildTree_inv.internal in Hik.
clear - Hik HrD. split; intros H; [destruct (proj1 Hik (or_intror H))|destruct (proj2 Hik (or_intror H))]; auto; lia. }
      assert (Hhk : has L' r q <-> has L r q).
      { rewrite has_L'. split; [|intros HH; left; exact HH]. intros [H|[En H]]; [assumption|].
        destruct Hq as [Hq|[Hq Hr']]; [contradiction|]. rewrite H. apply hasL_k; [lia|].
        intros HL. destruct (HLnil HL). lia. }
      split; [|split].
      * intros i. rewrite B1. split; intros (C1 & C2 & x & C3 & C4).
        -- split; [assumption|]. split; [rewrite Hmk; assumption|]. exists x. split; [|assumption].
           unfold L'. rewrite nth_error_app1; [assumption|]. apply nth_error_Some. congruence.
        -- rewrite Hmk in C2 by assumption. split; [assumption|]. split; [assumption|]. exists x. split; [|assumption].
           destruct (Nat.lt_ge_cases i (length L)) as [Hi|Hi].
           ++ unfold L' in C3. rewrite nth_error_app1 in C3; assumption.
           ++ exfalso. unfold L' in C3. rewrite nth_error_app2 in C3 by assumption. apply nth_error_In in C3.
              destruct nb as [En|En]; rewrite En in C3; [|destruct C3]. destruct C3 as [<-|[]].
              destruct Hq as [Hq|[Hq Hr']]; [auto|]. apply C2. rewrite Hq.
              destruct (Habove r ltac:(lia)); [lia|assumption].
      * intros d. rewrite B2. split; intros (C1 & C2 & C3); split; auto; split; auto.
        -- apply ce_iff; [lia|]. left. assumption.
        -- apply ce_iff in C3; [|lia].
           assert (Hup : forall x, q * B + d = up (r - 1) x -> q = up r x).
           { intros x Ex. rewrite (up_child dim Hdim r x C2), <- Ex. symmetry. apply (child_parent dim). assumption. }
           destruct C3 as [H|[[H1 H2]|[(H1 & H2 & H3)|(H1 & H2 & H3)]]]; [assumption| | |].
           ++ pose proof (Hup k H1) as Hqk. destruct (N.eq_dec (r - 1) rs) as [Er|Er].
              ** rewrite H1, Er. exact Hexrs.
              ** exfalso. apply (A1 r); [lia|assumption].
           ++ exfalso. apply (A1 m); [lia|]. rewrite (Hup k H1). f_equal. lia.
           ++ exfalso. apply (A1 m); [lia|]. rewrite (Hup l H1). replace r with m by lia.
              apply Hm2; [|lia]. apply HKL, l_in, H3.
      * assert (HP : has L r q -> (closed l rs r q <-> closed k (m - 1) r q)).
        { intros (x & Hx & _). assert (HL : L <> []) by (intros EL; rewrite EL in Hx; destruct Hx).
          pose proof (HKL _ (l_in HL)) as HlK.
          unfold BuildTree_inv.closed. destruct Hq as [Hq|[Hq Hr']].
          - assert (~ (rs <= r /\ up r l = q)) by (intros [C1 C2]; apply Hq; rewrite <- C2; apply Hm2; [assumption|lia]).
            assert (~ (m - 1 <= r /\ up r k = q)) by (intros [C1 C2]; auto). tauto.
          - assert (rs <= r /\ up r l = q) by (split; [lia|rewrite Hq; apply Hm2; [assumption|lia]]).
            assert (m - 1 <= r /\ up r k = q) by (split; [lia|auto]). tauto. }
        destruct (c_node c') as [j|].
        -- destruct B3 as (C1 & C2 & C3 & C4). rewrite Hik by reflexivity. rewrite Hhk.
           split; [assumption|]. split; [assumption|]. split; [apply (HP C2); assumption|exact C4].
        -- rewrite Hik by reflexivity. rewrite Hhk. intros (C1 & C2 & C3). apply B3.
           split; [assumption|]. split; [assumption|]. apply (HP C2). assumption.
  - (* injective *)
    intros q q' c1 c2 j H1 H2 J1 J2. eapply (inv_inj _ _ _ _ _ _ _ _ HI q q'); eauto.
  - (* surjective *)
    intros j Hj. destruct (inv_surj _ _ _ _ _ _ _ _ HI j Hj) as (q & c' & Hq & Hjc).
    exists q, c'. split; [|assumption]. rewrite Ho; [assumption| | |].
    + intros s Hs ->. destruct (N.eq_dec s rs) as [->|Es].
      * congruence.
      * assert (tfind (st_tab st) (up s k) = None); [|congruence]. apply (Habsent s); [lia|apply Hlevk; lia|]. apply Hnocell. lia.
    + intros _ ->. assert (tfind (st_tab st) (up (m - 1) k) = None); [|congruence].
      apply (Habsent (m - 1)); [lia|apply Hlevk; lia|assumption].
    + intros Ho' ->. assert (tfind (st_tab st) (up (m - 1) l) = None); [|congruence].
      apply (Habsent (m - 1)); [lia|apply Hlevl; assumption|auto].
Qed.
End Insert.
End Turn.
