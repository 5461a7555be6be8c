(** The rounds of the sharing on all ranks, for a power-of-two number of ranks. *)
From Coq Require Import Sorted.
From Verif Require Import Base Key_model Key_spec Key_proofs HCell_model HCell_props
  BuildTree_model BuildTree_spec BuildTree_lemmas BuildTree_inv BuildTree_turn BuildTree_proofs BuildTree_shape.
From Verif Require Import Share_model Share_lemmas Share_sums Share_table Share_steps Share_update Share_local.
From Verif Require Hypercube_props.
Local Open Scope N_scope.

Lemma mapo_ok {A C} (g : A -> option C) (Q : A -> C -> Prop) : forall l, (forall a, In a l -> exists y, g a = Some y /\ Q a y) -> exists l', mapo g l = Some l' /\ Forall2 Q l l'.
Proof.
  induction l as [|a l IH]; intros H; [exists []; split; [reflexivity | constructor]|]. destruct (H a (or_introl eq_refl)) as (y & E & Hy). destruct IH as (l' & E' & F); [intros b Hb; apply H; right; exact Hb|].
  exists (y :: l'). cbn [mapo]. rewrite E, E'. split; [reflexivity | constructor; assumption].
Qed.
Lemma forall2_seq {C} (Q : nat -> C -> Prop) : forall n a l', Forall2 Q (seq a n) l' -> length l' = n /\ forall r, (r < n)%nat -> exists y, nth_error l' r = Some y /\ Q (a + r)%nat y.
Proof.
  induction n as [|n IH]; intros a l' F; inversion F as [|x y xs ys H1 H2]; subst; [split; [reflexivity | intros; lia]|]. destruct (IH _ _ H2) as [E G]. split; [cbn; lia|].
  intros [|r] Hr; [exists y; rewrite Nat.add_0_r; split; [reflexivity | exact H1]|]. destruct (G r ltac:(lia)) as (z & Hz & Qz). exists z. split; [exact Hz|]. replace (a + S r)%nat with (S a + r)%nat by lia. exact Qz.
Qed.

Lemma strict_arith (x y : nat) : (0 < x -> 0 < y -> S (S (0 * (2 * x) + (2 * x - 1))) < 2 * (2 * x) * y)%nat.
Proof. intros Hx Hy. assert (2 * (2 * x) * 1 <= 2 * (2 * x) * y)%nat by (apply Nat.mul_le_mono_l; lia). lia. Qed.
Lemma halves (x a b c : nat) : (0 < x -> a = 2 * c /\ b = 2 * c + 1 \/ b = 2 * c /\ a = 2 * c + 1 ->
  Nat.min (a * x) (b * x) = c * (2 * x) /\ Nat.max (a * x + (x - 1)) (b * x + (x - 1)) = c * (2 * x) + (2 * x - 1))%nat.
Proof. intros Hx [[-> ->]|[-> ->]]; nia. Qed.

Set Default Proof Using "All".
Section Rounds.
Context {Ent Sum : Type} (dim : N) (Hdim : dim_ok dim) (f : N -> list Ent -> list Sum -> Sum).
Context (pss : list (list (N * Ent))).
Notation D := (max_depth dim).
Notation B := (2 ^ dim).
Notation up := (up dim).
Notation full := (full dim).
Notation has := (has dim).
Notation many := (many dim).
Notation internal := (internal dim).
Notation cell_ex := (cell_ex dim).
Notation P := (P pss).
Notation K := (K pss).
Notation ks := (ks pss).
Notation nr := (nr pss).
Notation solo := (solo dim pss).
Notation lone := (lone dim pss).
Notation gdat := (gdat dim f pss).
Notation stable := (stable Ent Sum).
Notation TI := (TI dim f pss).
Notation okX := (okX dim pss).
Notation top := (top dim pss).
Notation above := (above dim).
Notation lov := (lov dim pss).
Notation hiv := (hiv dim pss).
Implicit Types (t : stable) (G H : nat -> Prop).
Hypothesis Hne : forall ps, In ps pss -> ps <> [].
Hypothesis Hsort : StronglySorted N.lt K.
Hypothesis Hfull : Forall full K.

Definition XG (G : nat -> Prop) (r : nat) (l q : N) : Prop :=
  l <= D /\ (cell_ex K (ks r) l q \/ exists s l0 q0, G s /\ top s l0 q0 /\ above l0 q0 l q).
Lemma top_ex s l q : top s l q -> cell_ex K (ks s) l q.
Proof.
  intros Ht. destruct (top_key dim Hdim f pss Hne Hsort Hfull s l q Ht) as (k & Hk & HkK & E & Hl & Hs & Hp). right. split; [exact Hl|]. split; [exists k; split; [exact Hk | congruence]|]. right.
  rewrite E, <- (up_S dim Hdim). apply (not_lone_many dim Hdim f pss Hne Hsort Hfull); [exists k; split; [exact HkK | reflexivity] | exact Hp].
Qed.
Lemma ex_up r l q : (r < nr)%nat -> cell_ex K (ks r) l q -> l < D -> cell_ex K (ks r) (l + 1) (q / B).
Proof.
  intros Hr [[-> _]|(H1 & (k & Hk & E) & H2)] Hl; [lia|]. subst q. rewrite <- (up_S dim Hdim) in *. destruct (N.eq_dec (l + 1) D) as [E|E].
  - left. split; [exact E|]. rewrite E. apply (up_root dim Hdim), (ks_full dim Hdim pss Hne Hsort Hfull r), Hk.
  - right. split; [lia|]. split; [exists k; split; [exact Hk | reflexivity]|]. destruct H2 as [H2|H2]; [lia|]. right. rewrite <- (up_S dim Hdim). apply (many_up dim Hdim K (l + 1) (l + 1 + 1) (up (l + 1) k) k); [lia | reflexivity | exact H2].
Qed.
Lemma XG_ok G r : (r < nr)%nat -> okX (XG G r).
Proof.
  intros Hr. split; [|split].
  - intros l q [Hl [He|(s & l0 & q0 & _ & Ht & Ha & E)]]; (split; [exact Hl|]).
    + apply (has_K dim Hdim pss Hne Hsort Hfull r). apply (ex_has dim Hdim f pss Hne Hsort Hfull r l q Hr Hl He).
    + destruct (top_key dim Hdim f pss Hne Hsort Hfull s l0 q0 Ht) as (k & Hk & HkK & E0 & _). exists k. split; [exact HkK|]. rewrite E, E0, <- (up_up dim Hdim). f_equal. lia.
  - split; [lia|]. left. left. split; reflexivity.
  - intros l q [Hl [He|(s & l0 & q0 & Hg & Ht & Ha & E)]] Hlt; (split; [lia|]).
    + left. apply ex_up; assumption.
    + right. exists s, l0, q0. split; [exact Hg|]. split; [exact Ht|]. split; [lia|]. rewrite E, <- (up_S dim Hdim). f_equal. lia.
Qed.
Lemma top_XG G r s l q : G r -> (XG G r l q /\ top s l q <-> G s /\ top s l q).
Proof.
  intros Hr. split.
  - intros [[Hl [He|(s' & l0 & q0 & Hg & Ht' & Ha & E)]] Ht]; (split; [|exact Ht]).
    + assert (r = s); [|subst; exact Hr]. destruct He as [[-> _]|(_ & Hh & _)]; [destruct Ht as [Ht _]; lia|]. apply (solo_has dim Hdim pss Hne Hsort Hfull s r l q); [apply Ht | exact Hh].
    + destruct (N.eq_dec l l0) as [->|Hn].
      * rewrite N.sub_diag, up_0 in E. subst q0. destruct (top_unique dim Hdim f pss Hne Hsort Hfull _ _ _ _ _ Ht Ht') as [-> _]. exact Hg.
      * exfalso. destruct (top_key dim Hdim f pss Hne Hsort Hfull s' l0 q0 Ht') as (k & Hk & HkK & E0 & Hl0 & Hs & Hp). rewrite E0, <- (up_up dim Hdim) in E. replace (l0 + (l - l0)) with l in E by lia.
        assert (HX : okX (XG G 0%nat)) by (apply XG_ok; apply (solo_lt dim Hdim pss Hne Hsort Hfull) in Hs; lia). destruct HX as (X1 & X2 & X3).
        apply (above_not_lone dim Hdim f pss Hne Hsort Hfull (XG G 0%nat) 0%nat s' k l0 X1 X2 X3 Hk Hl0 Hs Hp l); [lia|]. exists s. rewrite <- E. apply Ht.
  - intros [Hg Ht]. split; [|exact Ht]. split; [destruct Ht; lia|]. right. exists s, l, q. split; [exact Hg|]. split; [exact Ht|]. split; [destruct Ht; lia|]. rewrite N.sub_diag, up_0. reflexivity.
Qed.
Lemma top_exists s l k : In k (ks s) -> l <= D -> ~ lone l (up l k) -> exists l0, l0 < l /\ top s l0 (up l0 k).
Proof.
  intros Hk. assert (HkK : In k K) by (apply (ks_in dim Hdim pss Hne Hsort Hfull) in Hk; tauto). induction l as [|l IH] using N.peano_ind; intros Hl Hn.
  - exfalso. apply Hn, (lone_0 dim Hdim f pss Hne Hsort Hfull). exists k. split; [exact HkK | reflexivity].
  - destruct (lone_dec dim Hdim pss Hne Hsort Hfull l (up l k)) as [Hy|Hy].
    + exists l. split; [lia|]. split; [lia|]. destruct Hy as (s' & Hs'). assert (s = s') by (apply (solo_has dim Hdim pss Hne Hsort Hfull s' s l (up l k) Hs'); exists k; split; [exact Hk | reflexivity]). subst s'. split; [exact Hs'|]. rewrite <- (up_S dim Hdim), N.add_1_r. exact Hn.
    + destruct IH as (l0 & H1 & H2); [lia | exact Hy|]. exists l0. split; [lia | exact H2].
Qed.

Section Exch.
Hypothesis Hn2 : (2 <= nr)%nat.
Variables (G H : nat -> Prop) (r p : nat) (me other : rank_st Ent Sum).
Hypothesis Hr : (r < nr)%nat.
Hypothesis Hp : (p < nr)%nat.
Hypothesis HG : G r.
Hypothesis HH : H p.
Hypothesis Hdisj : forall s, G s -> ~ H s.
Hypothesis HTm : TI (XG G r) (XG G r) lone (k_tab me).
Hypothesis HTo : TI (XG H p) (XG H p) lone (k_tab other).
Let GH := fun s => G s \/ H s.
Lemma exchange_ok : exists t2, TI (XG GH r) (XG GH r) lone t2 /\
  exchange dim f r me other = match cofm_update dim f 66 (N.min (k_lo other) (k_lo me)) (N.max (k_hi other) (k_hi me)) t2 key_root with
    | Some t3 => Some (mkrs t3 (N.min (k_lo other) (k_lo me)) (N.max (k_hi other) (k_hi me))) | None => None end.
Proof.
  unfold exchange. destruct (find_root dim Hdim f pss Hne Hsort Hfull (XG H p) (k_tab other) (XG_ok H p Hp) HTo Hn2) as ([ns es] & Ef & If). rewrite Ef. cbn [fst snd].
  assert (It : forall o q x, In (o, q, x) (tags (ns, es)) <-> exists l, H o /\ top o l q /\ x = gdat l q).
  { intros o q x. rewrite If. split; intros (l & A1 & A2 & A3); exists l; [destruct (proj1 (top_XG H p o l q HH) (conj A1 A2)); tauto | destruct (proj2 (top_XG H p o l q HH) (conj A1 A2)); tauto]. }
  destruct (load_ents_ok dim Hdim f pss Hne Hsort Hfull r es (XG G r) (k_tab me)) as (t1 & E1 & T1 & O1); [apply XG_ok, Hr | | exact HTm|].
  { intros it Hit. destruct (proj1 (It (i_owner it) (i_key it) (inl (i_val it)))) as (l & _ & A2 & A3); [unfold tags; cbn [fst snd]; apply in_or_app; right; apply in_map_iff; exists it; split; [reflexivity | exact Hit]|]. exists l. split; [exact A2 | symmetry; exact A3]. }
  rewrite E1.
  destruct (load_nodes_ok dim Hdim f pss Hne Hsort Hfull r ns (Xadd dim pss r es (XG G r)) t1 O1) as (t2 & E2 & T2 & O2); [|exact T1|].
  { intros it Hit. destruct (proj1 (It (i_owner it) (i_key it) (inr (i_val it)))) as (l & _ & A2 & A3); [unfold tags; cbn [fst snd]; apply in_or_app; left; apply in_map_iff; exists it; split; [reflexivity | exact Hit]|]. exists l. split; [exact A2 | symmetry; exact A3]. }
  rewrite E2. exists t2. split; [|reflexivity].
  assert (EX : forall l q, l <= D -> (Xadd dim pss r ns (Xadd dim pss r es (XG G r)) l q <-> XG GH r l q)).
  { intros l q Hl. unfold Xadd. split.
    - intros [[[_ [A|(s & l0 & q0 & A1 & A2)]]|(it & l1 & A1 & A2 & A3 & A4)]|(it & l1 & A1 & A2 & A3 & A4)]; (split; [exact Hl|]); [left; exact A | right; exists s, l0, q0; split; [left; exact A1 | exact A2] | |].
      + right. exists (i_owner it), l1, (i_key it). split; [right|split; assumption]. destruct (proj1 (It (i_owner it) (i_key it) (inl (i_val it)))) as (l' & B1 & _); [unfold tags; cbn [fst snd]; apply in_or_app; right; apply in_map_iff; exists it; split; [reflexivity | exact A1] | exact B1].
      + right. exists (i_owner it), l1, (i_key it). split; [right|split; assumption]. destruct (proj1 (It (i_owner it) (i_key it) (inr (i_val it)))) as (l' & B1 & _); [unfold tags; cbn [fst snd]; apply in_or_app; left; apply in_map_iff; exists it; split; [reflexivity | exact A1] | exact B1].
    - intros [_ [A|(s & l0 & q0 & [A1|A1] & A2 & A3)]]; [left; left; split; [exact Hl | left; exact A] | left; left; split; [exact Hl | right; exists s, l0, q0; tauto]|].
      assert (Hin : In (s, q0, gdat l0 q0) (tags (ns, es))) by (apply It; exists l0; tauto). assert (s <> r) by (intros ->; apply (Hdisj r HG A1)).
      unfold tags in Hin. cbn [fst snd] in Hin. apply in_app_or in Hin. destruct Hin as [Hin|Hin]; apply in_map_iff in Hin; destruct Hin as (it & Eit & Hit); injection Eit as <- <- _.
      + right. exists it, l0. tauto.
      + left. right. exists it, l0. tauto. }
  apply (TI_ext dim Hdim f pss Hne Hsort Hfull _ _ _ _ _ _ t2) with (4 := T2); [exact EX | exact EX | intros; reflexivity].
Qed.
Lemma exchange_part : (key_min dim < N.min (k_lo other) (k_lo me) \/ N.max (k_hi other) (k_hi me) < key_max dim) ->
  exists st, exchange dim f r me other = Some st /\ k_lo st = N.min (k_lo other) (k_lo me) /\ k_hi st = N.max (k_hi other) (k_hi me) /\ TI (XG GH r) (XG GH r) lone (k_tab st).
Proof.
  intros Hb. destruct exchange_ok as (t2 & T2 & E). destruct (XG_ok GH r Hr) as (_ & HR & _). destruct (ti_cell _ _ _ _ _ _ _ T2 D 1 (N.le_refl D) HR) as (c & Hc & _).
  rewrite (update_none dim Hdim f pss Hne Hsort Hfull _ _ t2 65 c Hc Hb) in E. eexists. split; [exact E|]. split; [reflexivity|]. split; [reflexivity | exact T2].
Qed.
Lemma exchange_full : N.min (k_lo other) (k_lo me) <= key_min dim -> key_max dim <= N.max (k_hi other) (k_hi me) -> (forall s, (s < nr)%nat -> GH s) ->
  exists st, exchange dim f r me other = Some st /\ k_lo st = N.min (k_lo other) (k_lo me) /\ k_hi st = N.max (k_hi other) (k_hi me) /\ TI (XG GH r) (XG GH r) (fun _ _ => True) (k_tab st).
Proof.
  intros H1 H2 Hall. destruct exchange_ok as (t2 & T2 & E). destruct (update_root dim Hdim f pss Hne Hsort Hfull (XG GH r) _ _ (XG_ok GH r Hr) H1 H2) with (t := t2) as (t3 & E3 & T3); [|exact T2|].
  - intros l q d [Hl Hx] Hnl Hl1 Hd (k & Hk & Ek). destruct (K_in dim Hdim pss Hne Hsort Hfull k Hk) as (s & Hs & Hks).
    assert (Eq : up l k = q) by (rewrite (up_child dim Hdim l k Hl1), Ek; apply (child_parent dim), Hd).
    destruct (top_exists s l k Hks Hl) as (l0 & L1 & L2); [rewrite Eq; exact Hnl|]. split; [lia|]. right. exists s, l0, (up l0 k). split; [apply Hall, Hs|]. split; [exact L2|]. split; [lia|]. rewrite <- Ek, <- (up_up dim Hdim). f_equal. lia.
  - rewrite E3 in E. eexists. split; [exact E|]. split; [reflexivity|]. split; [reflexivity | exact T3].
Qed.
End Exch.

(** ** Bounds of a block of ranks *)
Lemma full_bounds k : full k -> key_min dim <= k <= key_max dim.
Proof. intros [H1 H2]. rewrite (key_min_pow dim Hdim), (key_max_pow dim Hdim). lia. Qed.
Lemma lov_spec r : (r < nr)%nat -> (r = 0%nat /\ lov r = key_min dim) \/ ((0 < r)%nat /\ In (lov r) (ks (r - 1)) /\ forall k r', In k (ks r') -> (r' < r)%nat -> k <= lov r).
Proof.
  intros Hr. unfold Share_local.lov. destruct (Share_lemmas.lo pss r) as [x|] eqn:E; [right; apply (lo_spec dim Hdim pss Hne Hsort Hfull r x Hr E) | left; split; [apply (lo_none dim Hdim pss Hne Hsort Hfull r Hr E) | reflexivity]].
Qed.
Lemma hiv_spec r : (r < nr)%nat -> (r = nr - 1 /\ hiv r = key_max dim)%nat \/ ((S r < nr)%nat /\ In (hiv r) (ks (S r)) /\ forall k r', In k (ks r') -> (r < r')%nat -> hiv r <= k).
Proof.
  intros Hr. unfold Share_local.hiv. destruct (Share_lemmas.hi pss r) as [x|] eqn:E; [right; apply (hi_spec dim Hdim pss Hne Hsort Hfull r x Hr E) | left; split; [apply (hi_none dim Hdim pss Hne Hsort Hfull r Hr E) | reflexivity]].
Qed.
Lemma lov_mono a b : (a <= b)%nat -> (b < nr)%nat -> lov a <= lov b.
Proof.
  intros Hab Hb. destruct (lov_spec b Hb) as [[-> ->]|(B1 & B2 & B3)].
  - assert (a = 0%nat) by lia. subst a. destruct (lov_spec 0 Hb) as [[_ ->]|(A1 & _)]; lia.
  - destruct (lov_spec a ltac:(lia)) as [[_ ->]|(A1 & A2 & A3)]; [apply full_bounds, (ks_full dim Hdim pss Hne Hsort Hfull _ _ B2) | apply (B3 _ _ A2); lia].
Qed.
Lemma hiv_mono a b : (a <= b)%nat -> (b < nr)%nat -> hiv a <= hiv b.
Proof.
  intros Hab Hb. destruct (hiv_spec a ltac:(lia)) as [[A ->]|(A1 & A2 & A3)].
  - assert (a = b) by lia. subst b. destruct (hiv_spec a ltac:(lia)) as [[_ ->]|(B1 & _)]; lia.
  - destruct (hiv_spec b Hb) as [[_ ->]|(B1 & B2 & B3)]; [apply full_bounds, (ks_full dim Hdim pss Hne Hsort Hfull _ _ A2) | apply (A3 _ _ B2); lia].
Qed.
Lemma lov_min a b : (a < nr)%nat -> (b < nr)%nat -> N.min (lov a) (lov b) = lov (Nat.min a b).
Proof. intros Ha Hb. destruct (Nat.le_ge_cases a b) as [Hab|Hab]; [pose proof (lov_mono a b Hab Hb); rewrite Nat.min_l by exact Hab; lia | pose proof (lov_mono b a Hab Ha); rewrite Nat.min_r by exact Hab; lia]. Qed.
Lemma hiv_max a b : (a < nr)%nat -> (b < nr)%nat -> N.max (hiv a) (hiv b) = hiv (Nat.max a b).
Proof. intros Ha Hb. destruct (Nat.le_ge_cases a b) as [Hab|Hab]; [pose proof (hiv_mono a b Hab Hb); rewrite Nat.max_r by exact Hab; lia | pose proof (hiv_mono b a Hab Ha); rewrite Nat.max_l by exact Hab; lia]. Qed.
Lemma some_key r : (r < nr)%nat -> exists k, In k (ks r).
Proof. intros Hr. pose proof (ks_ne dim Hdim pss Hne Hsort Hfull r Hr). destruct (ks r) as [|k l]; [congruence|]. exists k. left. reflexivity. Qed.
Lemma lov_strict r : (2 <= r)%nat -> (r < nr)%nat -> key_min dim < lov r.
Proof.
  intros H2 Hr. destruct (lov_spec r Hr) as [[-> _]|(A1 & A2 & _)]; [lia|]. destruct (some_key 0 ltac:(lia)) as (k & Hk). apply N.le_lt_trans with k; [apply full_bounds, (ks_full dim Hdim pss Hne Hsort Hfull _ _ Hk)|].
  apply (rank_lt dim Hdim pss Hne Hsort Hfull 0%nat (r - 1)%nat); [lia | exact Hk | exact A2].
Qed.
Lemma hiv_strict r : (S (S r) < nr)%nat -> hiv r < key_max dim.
Proof.
  intros H2. destruct (hiv_spec r ltac:(lia)) as [[-> _]|(A1 & A2 & _)]; [lia|]. destruct (some_key (nr - 1) ltac:(lia)) as (k & Hk). apply N.lt_le_trans with k; [|apply full_bounds, (ks_full dim Hdim pss Hne Hsort Hfull _ _ Hk)].
  apply (rank_lt dim Hdim pss Hne Hsort Hfull (S r) (nr - 1)%nat); [lia | exact A2 | exact Hk].
Qed.

(** ** All rounds *)
Section Cube.
Variable m : nat.
Hypothesis Hm : nr = (2 ^ m)%nat.
Definition blk (i r s : nat) : Prop := (s < nr /\ s / 2 ^ i = r / 2 ^ i)%nat.
Definition fst_of (i r : nat) : nat := (r / 2 ^ i * 2 ^ i)%nat.
Definition lst_of (i r : nat) : nat := (r / 2 ^ i * 2 ^ i + (2 ^ i - 1))%nat.
Definition Fi (i : nat) : N -> N -> Prop := fun l q => if (i <? m)%nat then lone l q else True.
Definition RS (i : nat) (l : list (rank_st Ent Sum)) : Prop := length l = nr /\ forall r, (r < nr)%nat -> exists st, nth_error l r = Some st /\
  k_lo st = lov (fst_of i r) /\ k_hi st = hiv (lst_of i r) /\ TI (XG (blk i r) r) (XG (blk i r) r) (Fi i) (k_tab st).
Lemma pow_pos i : (0 < 2 ^ i)%nat. Proof. clear. induction i; cbn; lia. Qed.
Lemma blk_bounds i r : (i <= m)%nat -> (r < nr)%nat -> (fst_of i r <= r <= lst_of i r /\ lst_of i r < nr)%nat.
Proof.
  intros Hi Hr. unfold fst_of, lst_of. pose proof (pow_pos i). pose proof (Nat.div_mod r (2 ^ i) ltac:(lia)). pose proof (Nat.mod_upper_bound r (2 ^ i) ltac:(lia)). split; [lia|].
  rewrite Hm in *. replace m with (m - i + i)%nat in * by lia. rewrite Nat.pow_add_r in *. assert (r / 2 ^ i < 2 ^ (m - i))%nat by (apply Nat.div_lt_upper_bound; lia).
  set (x := (2 ^ i)%nat) in *. set (y := (2 ^ (m - i))%nat) in *. set (z := (r / x)%nat) in *. assert ((z + 1) * x <= y * x)%nat by (apply Nat.mul_le_mono_r; lia). lia.
Qed.
Lemma partner i r : (i < m)%nat -> (r < nr)%nat -> let p := Nat.lxor r (2 ^ i) in (p < nr)%nat /\ (Nat.min (fst_of i r) (fst_of i p) = fst_of (S i) r)%nat /\ (Nat.max (lst_of i r) (lst_of i p) = lst_of (S i) r)%nat /\
  (forall s, blk i r s -> ~ blk i p s) /\ (forall s, blk (S i) r s <-> blk i r s \/ blk i p s).
Proof.
  intros Hi Hr p. assert (Hp : (p < nr)%nat) by (rewrite Hm; apply Hypercube_props.lxor_bound; [rewrite <- Hm; exact Hr | apply Nat.pow_lt_mono_r; lia]). split; [exact Hp|].
  assert (E : forall x, (x / 2 ^ S i = x / 2 ^ i / 2)%nat) by (intros x; cbn [Nat.pow]; rewrite (Nat.mul_comm 2), Nat.div_div; [reflexivity | pose proof (pow_pos i); lia | lia]).
  unfold fst_of, lst_of, blk. rewrite !E. assert (Ep : (p / 2 ^ i = Nat.lxor (r / 2 ^ i) 1)%nat) by apply Hypercube_props.div_lxor_low. rewrite Ep. destruct (Hypercube_props.lxor_1 (r / 2 ^ i)) as (A1 & A2 & A3).
  set (a := (r / 2 ^ i)%nat) in *. set (b := Nat.lxor a 1) in *. change (2 ^ S i)%nat with (2 * 2 ^ i)%nat. pose proof (pow_pos i). set (x := (2 ^ i)%nat) in *.
  assert (C : (a = 2 * (a / 2) /\ b = 2 * (a / 2) + 1 \/ b = 2 * (a / 2) /\ a = 2 * (a / 2) + 1)%nat).
  { pose proof (Nat.div_mod a 2 ltac:(lia)). pose proof (Nat.mod_upper_bound a 2 ltac:(lia)). pose proof (Nat.div_mod b 2 ltac:(lia)). pose proof (Nat.mod_upper_bound b 2 ltac:(lia)). lia. }
  set (c := (a / 2)%nat) in *. split; [|split; [|split]].
  - apply (halves x a b c); assumption.
  - apply (halves x a b c); assumption.
  - intros s [_ E1] [_ E2]. apply A1. congruence.
  - intros s. rewrite E. split.
    + intros [H1 H2]. destruct (A3 _ H2) as [H3|H3]; [left | right]; tauto.
    + intros [[H1 H2]|[H1 H2]]; (split; [exact H1|]); rewrite H2; [reflexivity | exact A2].
Qed.
Lemma round_ok i l : (i < m)%nat -> RS i l -> exists l', share_round dim f nr i l = Some l' /\ RS (S i) l'.
Proof.
  intros Hi [Hlen HR]. assert (Hn2 : (2 <= nr)%nat) by (rewrite Hm; replace m with (S (m - 1)) by lia; pose proof (pow_pos (m - 1)); cbn; lia).
  unfold share_round.
  destruct (mapo_ok (fun r => match nth_error l r with Some me => if (Nat.lxor r (2 ^ i) <? nr)%nat then match nth_error l (Nat.lxor r (2 ^ i)) with Some o => exchange dim f r me o | None => None end else Some me | None => None end)
    (fun r st => k_lo st = lov (fst_of (S i) r) /\ k_hi st = hiv (lst_of (S i) r) /\ TI (XG (blk (S i) r) r) (XG (blk (S i) r) r) (Fi (S i)) (k_tab st)) (seq 0 nr)) as (l' & E & F2).
  - intros r Hr. apply in_seq in Hr. destruct Hr as [_ Hr]. cbn [Nat.add] in Hr. destruct (HR r Hr) as (me & Eme & L1 & H1 & T1). rewrite Eme.
    destruct (partner i r Hi Hr) as (Hp & Emin & Emax & Hdis & Hblk). set (p := Nat.lxor r (2 ^ i)) in *. replace (p <? nr)%nat with true by (symmetry; apply Nat.ltb_lt; exact Hp).
    destruct (HR p Hp) as (o & Eo & L2 & H2 & T2). rewrite Eo.
    assert (Hfi : forall l q, Fi i l q <-> lone l q) by (intros; unfold Fi; replace (i <? m)%nat with true by (symmetry; apply Nat.ltb_lt; exact Hi); reflexivity).
    apply (TI_ext dim Hdim f pss Hne Hsort Hfull _ (XG (blk i r) r) _ (XG (blk i r) r) _ lone) in T1; [|intros; reflexivity | intros; reflexivity | intros; apply Hfi].
    apply (TI_ext dim Hdim f pss Hne Hsort Hfull _ (XG (blk i p) p) _ (XG (blk i p) p) _ lone) in T2; [|intros; reflexivity | intros; reflexivity | intros; apply Hfi].
    pose proof (blk_bounds i r ltac:(lia) Hr) as [B1 B2]. pose proof (blk_bounds i p ltac:(lia) Hp) as [B3 B4]. pose proof (blk_bounds (S i) r ltac:(lia) Hr) as [B5 B6].
    assert (Elo : N.min (k_lo o) (k_lo me) = lov (fst_of (S i) r)) by (rewrite L1, L2, lov_min by lia; f_equal; lia).
    assert (Ehi : N.max (k_hi o) (k_hi me) = hiv (lst_of (S i) r)) by (rewrite H1, H2, hiv_max by lia; f_equal; lia).
    assert (Hself : forall a, (a < nr)%nat -> blk i a a) by (intros a Ha; split; [exact Ha | reflexivity]).
    assert (HXG : forall l q, XG (fun s => blk i r s \/ blk i p s) r l q <-> XG (blk (S i) r) r l q).
    { intros l0 q. unfold XG. split; (intros [A [A2|(s & l1 & q1 & A3 & A4)]]; (split; [exact A|]); [left; exact A2 | right; exists s, l1, q1; split; [apply Hblk, A3 | exact A4]]). }
    destruct (Nat.ltb_spec (S i) m) as [Hlt|Hge].
    + destruct (exchange_part Hn2 (blk i r) (blk i p) r p me o Hr Hp (Hself r Hr) (Hself p Hp) Hdis T1 T2) as (st & Est & Lst & Hst & Tst).
      { rewrite Elo, Ehi. destruct (Nat.eq_dec (fst_of (S i) r) 0) as [E0|E0].
        - right. apply hiv_strict. unfold lst_of. unfold fst_of in E0. rewrite E0, Hm. replace m with (S (S i) + (m - S (S i)))%nat by lia. rewrite Nat.pow_add_r. cbn [Nat.pow]. pose proof (pow_pos i). pose proof (pow_pos (m - S (S i))). apply (strict_arith (2 ^ i) (2 ^ (m - S (S i)))); assumption.
        - left. apply lov_strict; [|lia]. unfold fst_of in *. pose proof (pow_pos i). revert E0. generalize (r / 2 ^ S i)%nat. cbn [Nat.pow]. intros [|z] E0; [lia|]. cbn [Nat.mul]. lia. }
      exists st. split; [exact Est|]. rewrite Lst, Hst. split; [exact Elo|]. split; [exact Ehi|].
      apply (TI_ext dim Hdim f pss Hne Hsort Hfull _ _ _ _ _ _ (k_tab st)) with (4 := Tst); [intros; apply HXG | intros; apply HXG|]. intros. unfold Fi. replace (S i <? m)%nat with true by (symmetry; apply Nat.ltb_lt; exact Hlt). reflexivity.
    + assert (Sm : S i = m) by lia.
      assert (Hall : (r / 2 ^ S i = 0)%nat) by (rewrite Sm, <- Hm; apply Nat.div_small, Hr).
      destruct (exchange_full Hn2 (blk i r) (blk i p) r p me o Hr Hp (Hself r Hr) (Hself p Hp) Hdis T1 T2) as (st & Est & Lst & Hst & Tst).
      { rewrite Elo. unfold fst_of. rewrite Hall. cbn. lia. }
      { rewrite Ehi. unfold lst_of. rewrite Hall, Sm, <- Hm. cbn [Nat.mul Nat.add]. destruct (hiv_spec (nr - 1) ltac:(lia)) as [[_ ->]|(A1 & _)]; lia. }
      { intros s Hs. apply Hblk. split; [exact Hs|]. rewrite Hall, Sm, <- Hm. apply Nat.div_small, Hs. }
      exists st. split; [exact Est|]. rewrite Lst, Hst. split; [exact Elo|]. split; [exact Ehi|].
      apply (TI_ext dim Hdim f pss Hne Hsort Hfull _ _ _ _ _ _ (k_tab st)) with (4 := Tst); [intros; apply HXG | intros; apply HXG|]. intros. unfold Fi. replace (S i <? m)%nat with false by (symmetry; apply Nat.ltb_ge; exact Hge). reflexivity.
  - exists l'. split; [exact E|]. apply forall2_seq in F2. destruct F2 as [F1 F2]. split; [exact F1|]. intros r Hr. destruct (F2 r Hr) as (y & Hy & Q). exists y. split; [exact Hy | exact Q].
Qed.
Lemma rounds_ok : forall j i l, (i + j = m)%nat -> RS i l -> exists l', share_rounds dim f nr j i l = Some l' /\ RS m l'.
Proof.
  induction j as [|j IH]; intros i l Hij HR; [exists l; replace m with i by lia; split; [reflexivity | exact HR]|]. cbn [share_rounds]. destruct (round_ok i l ltac:(lia) HR) as (l1 & E1 & R1). rewrite E1. apply IH; [lia | exact R1].
Qed.
Definition Xall (r : nat) : N -> N -> Prop := XG (fun s => (s < nr)%nat) r.
Lemma build_all_ok : (0 < nr)%nat -> exists l, build_all dim f pss = Some l /\ length l = nr /\ forall r, (r < nr)%nat -> exists st, nth_error l r = Some st /\ TI (Xall r) (Xall r) (fun _ _ => True) (k_tab st).
Proof.
  intros Hn. unfold build_all. fold nr. destruct (mapo_ok (rank_build dim f pss) (fun r st => k_lo st = lov r /\ k_hi st = hiv r /\ TI (cell_ex K (ks r)) (cell_ex K (ks r)) lone (k_tab st)) (seq 0 nr)) as (l & E & F2).
  { intros r Hr. apply in_seq in Hr. destruct (rank_build_ok dim Hdim f pss Hne Hsort Hfull r) as (st & A1 & A2 & A3 & A4 & _); [lia|]. exists st. tauto. }
  rewrite E. apply forall2_seq in F2. destruct F2 as [F1 F2]. replace (Nat.log2 nr) with m by (rewrite Hm, Nat.log2_pow2; lia).
  destruct (rounds_ok m 0 l eq_refl) as (l' & E' & L' & R').
  - split; [exact F1|]. intros r Hr. destruct (F2 r Hr) as (st & Hst & S1 & S2 & S3). cbn [Nat.add] in *. exists st. split; [exact Hst|]. unfold fst_of, lst_of. cbn [Nat.pow]. rewrite Nat.div_1_r, Nat.mul_1_r, Nat.add_0_r. split; [exact S1|]. split; [exact S2|].
    assert (HXG : forall l q, l <= D -> (cell_ex K (ks r) l q <-> XG (blk 0 r) r l q)).
    { intros l0 q Hl0. unfold XG. split; [intros A; split; [exact Hl0 | left; exact A]|]. intros [_ [A|(s & l1 & q1 & [_ A3] & A4 & A5 & A6)]]; [exact A|]. cbn [Nat.pow] in A3. rewrite !Nat.div_1_r in A3. subst s.
      subst q. pose proof (top_ex r l1 q1 A4) as He. assert (GX : forall b, l1 + b <= D -> cell_ex K (ks r) (l1 + b) (up b q1)).
      { induction b as [|b IHb] using N.peano_ind; intros Hb; [rewrite N.add_0_r, up_0; exact He|]. replace (N.succ b) with (b + 1) by lia. replace (l1 + (b + 1)) with (l1 + b + 1) by lia. rewrite (up_S dim Hdim). apply ex_up; [exact Hr | apply IHb; lia | lia]. }
      replace l0 with (l1 + (l0 - l1)) at 1 by lia. apply GX. lia. }
    apply (TI_ext dim Hdim f pss Hne Hsort Hfull _ _ _ _ _ _ (k_tab st)) with (4 := S3); [intros; apply HXG; assumption | intros; apply HXG; assumption|].
    intros l0 q Hl0 Hx. unfold Fi. destruct (Nat.ltb_spec 0 m) as [|Hz]; [reflexivity|]. split; [intros _; exact I|]. intros _. assert (nr = 1%nat) by (rewrite Hm; replace m with 0%nat by lia; reflexivity).
    exists r. split; [apply (ex_has dim Hdim f pss Hne Hsort Hfull r l0 q Hr Hl0 Hx)|]. intros k Hk _. destruct (K_in dim Hdim pss Hne Hsort Hfull k Hk) as (s & Hs & Hks). replace r with s by lia. exact Hks.
  - exists l'. split; [exact E'|]. split; [exact L'|]. intros r Hr. destruct (R' r Hr) as (st & Hst & _ & _ & T). exists st. split; [exact Hst|].
    assert (HXG : forall l q, XG (blk m r) r l q <-> Xall r l q).
    { intros l0 q. unfold Xall, XG. assert (HB : forall s, blk m r s <-> (s < nr)%nat) by (intros s; unfold blk; rewrite <- Hm; split; [tauto|]; intros Hs; split; [exact Hs|]; rewrite !Nat.div_small by assumption; reflexivity).
      split; (intros [A [A2|(s & l1 & q1 & A3 & A4)]]; (split; [exact A|]); [left; exact A2 | right; exists s, l1, q1; split; [apply HB, A3 | exact A4]]). }
    apply (TI_ext dim Hdim f pss Hne Hsort Hfull _ _ _ _ _ _ (k_tab st)) with (4 := T); [intros; apply HXG | intros; apply HXG|]. intros. unfold Fi. rewrite Nat.ltb_irrefl. reflexivity.
Qed.
End Cube.
End Rounds.
