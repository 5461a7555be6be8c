(** Traversals of a built tree: facts shared by the radius search and the SPH
    neighbour search. *)
From Coq Require Import Sorted Permutation.
From Verif Require Import Base Key_model Key_spec Key_proofs HCell_model HCell_props BuildTree_model BuildTree_spec BuildTree_lemmas
  BuildTree_inv BuildTree_shape BuildTree_props Vec Geometry_model Geometry_props Cofm_model Cofm_spec Cofm_proofs Search_model.
Local Open Scope N_scope.

(** every inner node has a child *)
Fixpoint ne (tr : tree) : Prop :=
  match tr with
  | Leaf _ => True
  | Node _ ch => ch <> [] /\ fold_right and True (map (fun x => ne (snd x)) ch)
  end.

Lemma low_bits dim w : (forall d, N.testbit w d = true -> d < 2 ^ dim) ->
  is_shared dim w = false /\ nchildren_to_receive dim w = 0.
Proof.
  intros H.
  assert (L : locality_displ dim = 2 ^ dim) by (unfold locality_displ; apply N.shiftl_1_l).
  assert (Hf : forall d, 2 ^ dim <= d -> N.testbit w d = false).
  { intros d Hd. destruct (N.testbit w d) eqn:E; [|reflexivity]. specialize (H d E). lia. }
  split.
  - unfold is_shared, locality_mask. rewrite L.
    replace (N.land w (N.shiftl 3 (2 ^ dim))) with 0.
    + rewrite N.shiftr_0_l. reflexivity.
    + apply N.bits_inj. intros i. rewrite N.bits_0, N.land_spec, testbit_shiftl_gen.
      destruct (N.ltb_spec i (2 ^ dim)); [rewrite andb_false_r; reflexivity|]. rewrite Hf by assumption. reflexivity.
  - unfold nchildren_to_receive, nchild_recv_displ. rewrite N.shiftl_1_l.
    apply N.bits_inj. intros i. rewrite N.bits_0, N.land_spec, N.shiftr_spec', Hf by lia. reflexivity.
Qed.

Section Search.
Variable dim : N.
Hypothesis Hdim : dim_ok dim.
Variables (t : table) (cofms : list cofm) (bodies : list body).
Notation B := (2 ^ dim).
Notation n := (N.to_nat dim).
Notation fcc := (fcc_cofm n bodies).
Hypothesis Hmass : forall b, In b bodies -> (0 < b_mass b)%R.
Hypothesis Hrad : forall b, In b bodies -> (0 <= b_rad b)%R.

Definition okt (x : N * tree) : Prop :=
  good dim fcc t cofms x /\ ne (snd x) /\ forall i, In i (leaves (snd x)) -> (i < length bodies)%nat.

Definition kids (p : N) (ch : list (N * tree)) : list (N * tree) := map (fun x => (p * B + fst x, snd x)) ch.
Definition size (stk : list (N * tree)) : nat := length (flat_map (fun x => cells dim (fst x) (snd x)) stk).

Lemma size_cons x stk : size (x :: stk) = (length (cells dim (fst x) (snd x)) + size stk)%nat.
Proof. unfold size. cbn [flat_map]. apply app_length. Qed.
Lemma size_app a b : size (a ++ b) = (size a + size b)%nat.
Proof. unfold size. rewrite flat_map_app. apply app_length. Qed.
Lemma size_rev a : size (rev a) = size a.
Proof. unfold size. apply Permutation_length, Permutation_flat_map, Permutation_sym, Permutation_rev. Qed.
Lemma size_node p k ch : length (cells dim p (Node k ch)) = S (size (kids p ch)).
Proof. cbn [cells length]. unfold size, kids. rewrite !flat_map_concat_map, map_map. reflexivity. Qed.
Lemma size_pos p tr : (1 <= length (cells dim p tr))%nat.
Proof. destruct tr; cbn; lia. Qed.

Lemma get_body_ok i : (i < length bodies)%nat -> nth_error bodies i = Some (get_body bodies i).
Proof. intros H. unfold get_body. apply nth_error_nth'. assumption. Qed.
Lemma get_body_in i : (i < length bodies)%nat -> In (get_body bodies i) bodies.
Proof. intros H. unfold get_body. apply nth_In. assumption. Qed.

Lemma leaf_facts p i : okt (p, Leaf i) -> exists c, tfind t p = Some c /\ is_node c = Some false /\
  get_entity bodies c = Some (i, get_body bodies i) /\ is_shared dim (c_word c) = false /\ (i < length bodies)%nat.
Proof.
  intros [[Hh _] [_ Hl]]. cbn [fst snd holds] in Hh. destruct Hh as (c & Hc & He & Hn & Hw).
  specialize (Hl i (or_introl eq_refl)). exists c. unfold is_node, get_entity. rewrite Hn, He, (get_body_ok i Hl).
  repeat split; auto. apply low_bits. intros d Hd. rewrite Hw in Hd. discriminate.
Qed.

Lemma node_facts p k ch : okt (p, Node k ch) -> exists c s, tfind t p = Some c /\ is_node c = Some true /\
  get_node cofms c = Some s /\ summary_ok n s (map (get_body bodies) (leaves (Node k ch))) /\
  child_keys dim t p (c_word c) (digits dim) = Some (map fst (kids p ch)) /\
  Forall okt (kids p ch) /\ is_shared dim (c_word c) = false /\ is_empty_node dim (c_word c) = false /\ ch <> [].
Proof.
  intros [Hg [[Hne Hnc] Hl]]. cbn [fst snd] in *.
  destruct (good_children dim fcc t cofms p k ch Hg) as [Hch Hlv].
  destruct Hg as [Hh _]. cbn [fst snd holds] in Hh.
  destruct Hh as (-> & (c & j & s & Hc & He & Hn & Hs & Hev & Hdig & Hbits) & Hh).
  apply fold_and_Forall in Hh. apply fold_and_Forall in Hnc. exists c, s.
  assert (Hlow : forall d, N.testbit (c_word c) d = true -> d < B).
  { intros d Hd. apply Hbits in Hd. rewrite Hdig in Hd. apply filter_In in Hd. apply (digits_in dim). tauto. }
  destruct (low_bits dim (c_word c) Hlow) as [Hsh Hrecv].
  split; [assumption|]. split; [unfold is_node; rewrite Hn; reflexivity|].
  split; [unfold get_node; rewrite Hn; assumption|].
  split; [apply eval_ok; [|assumption]; intros i Hi; apply Hmass, get_body_in, Hl, Hi|].
  split; [|split; [|split; [assumption|split; [|assumption]]]].
  - rewrite (child_keys_ok dim Hdim).
    + rewrite <- Hdig. unfold kids. rewrite !map_map. reflexivity.
    + intros d Hd. rewrite <- Hdig in Hd. split.
      * rewrite Hdig in Hd. apply filter_In in Hd. apply (digits_in dim). tauto.
      * apply in_map_iff in Hd. destruct Hd as (x & <- & Hx). rewrite Forall_forall in Hh.
        eapply holds_found. apply Hh. assumption.
    + intros _. apply Hlv. assumption.
  - unfold kids. apply Forall_forall. intros y Hy. apply in_map_iff in Hy. destruct Hy as (x & <- & Hx).
    rewrite Forall_forall in Hch, Hnc. split; [|split].
    + apply Hch. unfold kids. apply in_map_iff. eauto.
    + apply (Hnc x Hx).
    + cbn [snd]. intros i Hi. apply Hl. cbn [leaves]. apply in_flat_map. eauto.
  - unfold is_empty_node. rewrite Hrecv. rewrite (proj2 (N.ltb_ge _ _) (N.le_0_l _)), orb_false_r.
    apply negb_false_iff. unfold has_child. apply negb_true_iff. apply N.eqb_neq. intros E0.
    destruct ch as [|[d tr] ch]; [congruence|].
    assert (Hd : N.testbit (c_word c) d = true) by (apply Hbits; left; reflexivity).
    assert (Ht : N.testbit (N.land (c_word c) (N.shiftl 1 (N.shiftl 1 dim) - 1)) d = true).
    { rewrite N.land_spec, Hd. cbn [andb]. rewrite !N.shiftl_1_l, N.sub_1_r, <- N.ones_equiv.
      apply N.ones_spec_low. apply Hlow. assumption. }
    rewrite E0, N.bits_0 in Ht. discriminate.
Qed.

(** A traversal appends, up to order, what [out] says for each visited tree. *)
Lemma walk_spec {A} (func : N -> cell -> list A -> option (bool * list A)) (out : N * tree -> list A) :
  (forall p i c acc, okt (p, Leaf i) -> tfind t p = Some c -> 
     exists l, func p c acc = Some (false, acc ++ l) /\ Permutation l (out (p, Leaf i))) ->
  (forall p k ch c acc, okt (p, Node k ch) -> tfind t p = Some c ->
     (func p c acc = Some (true, acc) /\ Permutation (flat_map out (kids p ch)) (out (p, Node k ch))) \/
     exists l, func p c acc = Some (false, acc ++ l) /\ Permutation l (out (p, Node k ch))) ->
  forall fuel stk acc, Forall okt stk -> (size stk <= fuel)%nat ->
  exists l, walk dim t fuel func (map fst stk) acc = Some (acc ++ l) /\ Permutation l (flat_map out stk).
Proof using Hdim Hmass.
  intros HL HN. induction fuel as [|fuel IH]; intros stk acc Hok Hf.
  - destruct stk as [|[p tr] stk]; [exists []; rewrite app_nil_r; split; [reflexivity|constructor]|].
    rewrite size_cons in Hf. pose proof (size_pos p tr). cbn [fst snd] in Hf. lia.
  - destruct stk as [|[p tr] stk]; [exists []; rewrite app_nil_r; split; [reflexivity|constructor]|].
    inversion Hok as [|? ? Hp Hstk]; subst. rewrite size_cons in Hf. cbn [fst snd] in Hf.
    assert (SK : forall c l, tfind t p = Some c -> func p c acc = Some (false, acc ++ l) ->
      Permutation l (out (p, tr)) ->
      exists l0, walk dim t (S fuel) func (map fst ((p, tr) :: stk)) acc = Some (acc ++ l0) /\
        Permutation l0 (flat_map out ((p, tr) :: stk))).
    { intros c l Hc E HP. cbn [map fst walk]. rewrite Hc, E. cbn [fst snd].
      destruct (IH stk (acc ++ l) Hstk) as (l' & E' & HP'); [pose proof (size_pos p tr); lia|].
      rewrite E'. exists (l ++ l'). rewrite app_assoc. split; [reflexivity|]. cbn [flat_map]. apply Permutation_app; assumption. }
    destruct tr as [i|k ch].
    + destruct (leaf_facts p i Hp) as (c & Hc & _).
      destruct (HL p i c acc Hp Hc) as (l & E & HP). eapply SK; eauto.
    + destruct (node_facts p k ch Hp) as (c & s & Hc & _ & _ & _ & Hk & Hkids & _).
      destruct (HN p k ch c acc Hp Hc) as [[E HP]|(l & E & HP)]; [|eapply SK; eauto].
      cbn [map fst walk]. rewrite Hc, E. cbn [fst snd]. rewrite Hk.
      assert (E1 : rev (map fst (kids p ch)) ++ map fst stk = map fst (rev (kids p ch) ++ stk)).
      { rewrite map_app, map_rev. reflexivity. }
      rewrite E1. destruct (IH (rev (kids p ch) ++ stk) acc) as (l & E2 & HP2).
      * apply Forall_app. split; [apply Forall_rev; assumption|assumption].
      * rewrite size_app, size_rev. rewrite size_node in Hf. lia.
      * rewrite E2. exists l. split; [reflexivity|]. rewrite HP2, flat_map_app. cbn [flat_map].
        apply Permutation_app_tail. rewrite <- HP. apply Permutation_flat_map, Permutation_sym, Permutation_rev.
Qed.

(** ** radius search *)
Definition in_range (center : point) (radius : R) (i : nat) : bool :=
  Rleb (dist n (b_pos (get_body bodies i)) center) (Rmax radius (b_rad (get_body bodies i))).

Lemma Rmax_nonneg a b : (0 <= b)%R -> (0 <= Rmax a b)%R.
Proof. intros H. eapply Rle_trans; [exact H|apply Rmax_r]. Qed.

Lemma filter_none {A} (f : A -> bool) l : (forall x, In x l -> f x = false) -> filter f l = [].
Proof.
  induction l as [|a l IH]; intros H; cbn; [reflexivity|]. rewrite (H a) by (left; reflexivity).
  apply IH. intros. apply H. right. assumption.
Qed.

Lemma filter_flat_map {A B'} (f : B' -> bool) (g : A -> list B') l :
  filter f (flat_map g l) = flat_map (fun x => filter f (g x)) l.
Proof. induction l; cbn; [reflexivity|]. rewrite filter_app, IHl. reflexivity. Qed.

Lemma kids_leaves p ch : flat_map (fun x => leaves (snd x)) (kids p ch) = flat_map (fun x => leaves (snd x)) ch.
Proof. unfold kids. rewrite !flat_map_concat_map, map_map. reflexivity. Qed.

Lemma find_spec center radius fuel stk acc : (0 <= radius)%R -> Forall okt stk -> (size stk <= fuel)%nat ->
  exists l, walk dim t fuel (find_func dim cofms bodies center radius) (map fst stk) acc = Some (acc ++ l) /\
    Permutation l (filter (in_range center radius) (flat_map (fun x => leaves (snd x)) stk)).
Proof using Hdim Hmass Hrad.
  intros Hr0 Hok Hf.
  destruct (walk_spec (find_func dim cofms bodies center radius) (fun x => filter (in_range center radius) (leaves (snd x))))
    with (fuel := fuel) (stk := stk) (acc := acc) as (l & E & HP); auto.
  - intros p i c acc' Hp Hc. destruct (leaf_facts p i Hp) as (c' & Hc' & Hn & He & _ & Hi).
    rewrite Hc in Hc'. injection Hc' as <-. unfold find_func. rewrite Hn, He. cbn [fst snd leaves filter].
    assert (E : within_distance2 n center (b_pos (get_body bodies i)) (Rmax radius (b_rad (get_body bodies i))) = in_range center radius i).
    { unfold within_distance2, in_range. apply eq_true_iff_eq. rewrite !Rleb_true, dist2_sym.
      symmetry. apply dist_le_iff. apply Rmax_nonneg, Hrad, get_body_in, Hi. }
    rewrite E. destruct (in_range center radius i).
    + exists [i]. split; [reflexivity|constructor; constructor].
    + exists []. rewrite app_nil_r. split; [reflexivity|constructor].
  - intros p k ch c acc' Hp Hc.
    destruct (node_facts p k ch Hp) as (c' & s & Hc' & Hn & Hs & Hsum & _).
    rewrite Hc in Hc'. injection Hc' as <-. unfold find_func. rewrite Hn, Hs.
    destruct (within_distance2 n (cm_pos s) center (Rmax (cm_lap s) radius + cm_rad s)) eqn:Ew.
    + left. split; [reflexivity|]. cbn [snd leaves]. rewrite filter_flat_map.
      unfold kids. rewrite !flat_map_concat_map, map_map. apply Permutation_refl.
    + right. exists []. rewrite app_nil_r. split; [reflexivity|]. rewrite filter_none; [constructor|].
      intros i Hi. unfold in_range. apply Rleb_false. apply Rnot_le_lt. intros Hd.
      assert (Hb : In (get_body bodies i) (map (get_body bodies) (leaves (Node k ch)))) by (apply in_map; assumption).
      assert (Hin : In (get_body bodies i) bodies) by (apply get_body_in, Hp, Hi).
      pose proof (so_rad _ _ _ Hsum _ Hb) as H1. pose proof (so_lap _ _ _ Hsum _ Hb) as H2.
      pose proof (dist_nonneg n (cm_pos s) (b_pos (get_body bodies i))) as H3.
      pose proof (dist_triangle n (cm_pos s) (b_pos (get_body bodies i)) center) as H4.
      assert (Hm : (Rmax radius (b_rad (get_body bodies i)) <= Rmax (cm_lap s) radius)%R).
      { unfold Rmax. destruct (Rle_dec radius (b_rad (get_body bodies i))), (Rle_dec (cm_lap s) radius); lra. }
      unfold within_distance2 in Ew. apply Rleb_false in Ew. apply Rlt_not_le in Ew. apply Ew.
      apply dist_le_iff; [|lra]. pose proof (so_rad0 _ _ _ Hsum). pose proof (Rmax_l (cm_lap s) radius). pose proof (so_lap0 _ _ _ Hsum). lra.
  - exists l. split; [assumption|]. rewrite HP, filter_flat_map. apply Permutation_refl.
Qed.
End Search.
