(** Node summaries of any tree. *)
From Coq Require Import Permutation.
From Verif Require Import Base Vec Cofm_model Cofm_spec BuildTree_spec BuildTree_shape.
Local Open Scope R_scope.

Lemma fold_sum {A} (f : A -> R) l : forall a, fold_left (fun s x => s + f x) l a = a + suml f l.
Proof. induction l; intros b; cbn; [ring|]. rewrite IHl. ring. Qed.
Lemma fold_max_ge {A} (f : A -> R) l : forall a, a <= fold_left (fun s x => Rmax s (f x)) l a.
Proof. induction l; intros b; cbn; [lra|]. eapply Rle_trans; [|apply IHl]. apply Rmax_l. Qed.
Lemma fold_max_in {A} (f : A -> R) l x : In x l -> forall a, f x <= fold_left (fun s x => Rmax s (f x)) l a.
Proof.
  induction l as [|y l IH]; intros Hx a; [destruct Hx|]. cbn. destruct Hx as [->|Hx]; [|apply IH; assumption].
  eapply Rle_trans; [|apply fold_max_ge]. apply Rmax_r.
Qed.
Lemma fold_max_att {A} (f : A -> R) l : forall a, let m := fold_left (fun s x => Rmax s (f x)) l a in
  m = a \/ exists x, In x l /\ m = f x.
Proof.
  induction l as [|y l IH]; intros a; cbn; [left; reflexivity|].
  destruct (IH (Rmax a (f y))) as [E|(x & Hx & E)].
  - rewrite E. unfold Rmax. destruct (Rle_dec a (f y)); [right; exists y; auto|left; reflexivity].
  - right. exists x. auto.
Qed.
Lemma fold_min_le {A} (f : A -> R) l : forall a, fold_left (fun s x => Rmin s (f x)) l a <= a.
Proof. induction l; intros b; cbn; [lra|]. eapply Rle_trans; [apply IHl|]. apply Rmin_l. Qed.
Lemma fold_min_in {A} (f : A -> R) l x : In x l -> forall a, fold_left (fun s x => Rmin s (f x)) l a <= f x.
Proof.
  induction l as [|y l IH]; intros Hx a; [destruct Hx|]. cbn. destruct Hx as [->|Hx]; [|apply IH; assumption].
  eapply Rle_trans; [apply fold_min_le|]. apply Rmin_r.
Qed.
Lemma fold_min_att {A} (f : A -> R) l : forall a, let m := fold_left (fun s x => Rmin s (f x)) l a in
  m = a \/ exists x, In x l /\ m = f x.
Proof.
  induction l as [|y l IH]; intros a; cbn; [left; reflexivity|].
  destruct (IH (Rmin a (f y))) as [E|(x & Hx & E)].
  - rewrite E. unfold Rmin. destruct (Rle_dec a (f y)); [left; reflexivity|right; exists y; auto].
  - right. exists x. auto.
Qed.
Lemma fold_count {A} (f : A -> nat) l : forall a, fold_left (fun s x => (s + f x)%nat) l a = (a + list_sum (map f l))%nat.
Proof. induction l; intros b; cbn; [lia|]. rewrite IHl. unfold list_sum. lia. Qed.
Lemma fold_len {A} (l : list A) : forall a, fold_left (fun s _ => S s) l a = (a + length l)%nat.
Proof. induction l; intros b; cbn; [lia|]. rewrite IHl. lia. Qed.

Lemma in_concat2 {A B} (Q : A -> list B -> Prop) ns pss b : Forall2 Q ns pss -> In b (concat pss) ->
  exists c ps, In c ns /\ In b ps /\ Q c ps /\ In ps pss.
Proof.
  induction 1 as [|c ps ns pss H HF IH]; cbn; [intros []|]. rewrite in_app_iff. intros [Hb|Hb].
  - exists c, ps. auto.
  - destruct (IH Hb) as (c' & ps' & ? & ? & ? & ?). exists c', ps'. auto.
Qed.
Lemma in_ns2 {A B} (Q : A -> list B -> Prop) ns pss c : Forall2 Q ns pss -> In c ns ->
  exists ps, In ps pss /\ Q c ps.
Proof.
  induction 1 as [|c' ps ns pss H HF IH]; cbn; [intros []|]. intros [->|Hc]; [eauto|].
  destruct (IH Hc) as (ps' & ? & ?). eauto.
Qed.

Lemma compute_cofm_ok n es ns pss :
  (forall b, In b (es ++ concat pss) -> 0 < b_mass b) ->
  Forall2 (summary_ok n) ns pss -> summary_ok n (compute_cofm n es ns) (es ++ concat pss).
Proof.
  intros Hm HF. set (ps := es ++ concat pss) in *.
  assert (EM : cm_mass (compute_cofm n es ns) = suml b_mass ps).
  { cbn. rewrite !fold_sum. unfold ps. rewrite suml_app, Rplus_0_l. f_equal.
    clear Hm. induction HF as [|c q ns pss H HF IH]; cbn; [reflexivity|].
    rewrite suml_app, (so_mass _ _ _ H), IH; auto. }
  assert (EP : forall i, cm_pos (compute_cofm n es ns) i * cm_mass (compute_cofm n es ns) =
                         suml (fun b => b_mass b * b_pos b i) ps).
  { intros i.
    assert (E : cm_pos (compute_cofm n es ns) i =
      suml (fun b => b_mass b * b_pos b i) ps / cm_mass (compute_cofm n es ns)).
    { cbn. f_equal. rewrite !fold_sum. unfold ps. rewrite suml_app, Rplus_0_l. f_equal.
      clear Hm EM. induction HF as [|c q ns pss H HF IH]; cbn; [reflexivity|].
      rewrite suml_app, <- (so_pos _ _ _ H), IH; auto. ring. }
    rewrite E, EM. destruct ps as [|b0 ps0] eqn:Eps.
    - cbn. lra.
    - assert (0 < suml b_mass (b0 :: ps0)) by (apply suml_pos; [discriminate|assumption]). field. lra. }
  set (X := cm_pos (compute_cofm n es ns)) in *.
  constructor.
  - exact EM.
  - exact EP.
  - cbn. rewrite fold_len, fold_count. cbn. unfold ps. rewrite app_length. f_equal.
    clear Hm EM EP ps X. induction HF as [|c q ns pss H HF IH]; cbn; [reflexivity|].
    rewrite app_length, (so_sub _ _ _ H), <- IH. reflexivity.
  - eapply Rle_trans; [|apply fold_max_ge]. apply fold_max_ge.
  - eapply Rle_trans; [|apply fold_max_ge]. apply fold_max_ge.
  - intros b Hb i. unfold ps in Hb. apply in_app_or in Hb. destruct Hb as [Hb|Hb].
    + split.
      * eapply Rle_trans; [apply fold_min_le|]. apply (fold_min_in (fun b => b_pos b i - b_rad b / 2)). assumption.
      * eapply Rle_trans; [|apply fold_max_ge]. apply (fold_max_in (fun b => b_pos b i + b_rad b / 2)). assumption.
    + destruct (in_concat2 _ _ _ _ HF Hb) as (c & q & Hc & Hbq & Hq & _).
      destruct (so_box _ _ _ Hq b Hbq i) as [H1 H2]. split.
      * eapply Rle_trans; [|exact H1]. apply (fold_min_in (fun c => cm_min c i)). assumption.
      * eapply Rle_trans; [exact H2|]. apply (fold_max_in (fun c => cm_max c i)). assumption.
  - fold X. intros b Hb. unfold ps in Hb. apply in_app_or in Hb. destruct Hb as [Hb|Hb].
    + eapply Rle_trans; [|apply fold_max_ge]. apply (fold_max_in (fun b => dist n X (b_pos b))). assumption.
    + destruct (in_concat2 _ _ _ _ HF Hb) as (c & q & Hc & Hbq & Hq & _).
      apply Rle_trans with (dist n X (cm_pos c) + cm_rad c).
      * pose proof (so_rad _ _ _ Hq b Hbq). pose proof (dist_triangle n X (cm_pos c) (b_pos b)). lra.
      * apply (fold_max_in (fun c => dist n X (cm_pos c) + cm_rad c)). assumption.
  - fold X. intros b Hb. unfold ps in Hb. apply in_app_or in Hb. destruct Hb as [Hb|Hb].
    + eapply Rle_trans; [|apply fold_max_ge]. apply (fold_max_in (fun b => dist n X (b_pos b) + b_rad b)). assumption.
    + destruct (in_concat2 _ _ _ _ HF Hb) as (c & q & Hc & Hbq & Hq & _).
      apply Rle_trans with (dist n X (cm_pos c) + cm_rad c + cm_lap c).
      * pose proof (so_lap _ _ _ Hq b Hbq). pose proof (so_rad0 _ _ _ Hq).
        pose proof (dist_triangle n X (cm_pos c) (b_pos b)). lra.
      * apply (fold_max_in (fun c => dist n X (cm_pos c) + cm_rad c + cm_lap c)). assumption.
  - intros Hne Hr i.
    assert (Hsub : forall q b, In q pss -> In b q -> In b ps).
    { intros q b Hq Hb. unfold ps. apply in_or_app. right. apply in_concat. eauto. }
    assert (Hch : forall c, In c ns -> (cm_min c i = dbl_max \/ exists b, In b ps /\ cm_min c i = b_pos b i - b_rad b / 2) /\
                                       (cm_max c i = - dbl_max \/ exists b, In b ps /\ cm_max c i = b_pos b i + b_rad b / 2)).
    { intros c Hc. destruct (in_ns2 _ _ _ _ HF Hc) as (q & Hq & Hok). destruct q as [|b0 q0].
      - destruct (so_void _ _ _ Hok eq_refl i) as [E1 E2]. auto.
      - destruct (so_tight _ _ _ Hok ltac:(discriminate)
          ltac:(intros b j Hb; apply Hr; eapply Hsub; eauto) i) as [(b & Hb & E1) (b' & Hb' & E2)].
        split; right; [exists b|exists b']; split; auto; eapply Hsub; eauto. }
    assert (Hex : exists b, In b ps) by (destruct ps as [|b ?]; [congruence|exists b; left; reflexivity]).
    destruct Hex as (bx & Hbx).
    assert (Hbox : forall b, In b ps -> cm_min (compute_cofm n es ns) i <= b_pos b i - b_rad b / 2 /\
                                      b_pos b i + b_rad b / 2 <= cm_max (compute_cofm n es ns) i).
    { intros b Hb. unfold ps in Hb. apply in_app_or in Hb. destruct Hb as [Hb|Hb].
      + split.
        * eapply Rle_trans; [apply fold_min_le|]. apply (fold_min_in (fun b => b_pos b i - b_rad b / 2)). assumption.
        * eapply Rle_trans; [|apply fold_max_ge]. apply (fold_max_in (fun b => b_pos b i + b_rad b / 2)). assumption.
      + destruct (in_concat2 _ _ _ _ HF Hb) as (c & q & Hc & Hbq & Hq & _).
        destruct (so_box _ _ _ Hq b Hbq i) as [H1 H2]. split.
        * eapply Rle_trans; [|exact H1]. apply (fold_min_in (fun c => cm_min c i)). assumption.
        * eapply Rle_trans; [exact H2|]. apply (fold_max_in (fun c => cm_max c i)). assumption. }
    split.
    + assert (A : cm_min (compute_cofm n es ns) i = dbl_max \/
                  exists b, In b ps /\ cm_min (compute_cofm n es ns) i = b_pos b i - b_rad b / 2).
      { cbn [cm_min compute_cofm].
        destruct (fold_min_att (fun c => cm_min c i) ns (fold_left (fun s b => Rmin s (b_pos b i - b_rad b / 2)) es dbl_max))
          as [E|(c & Hc & E)].
        - rewrite E. destruct (fold_min_att (fun b => b_pos b i - b_rad b / 2) es dbl_max) as [E'|(b & Hb & E')].
          + left. exact E'.
          + right. exists b. split; [unfold ps; apply in_or_app; auto|exact E'].
        - destruct (proj1 (Hch c Hc)) as [E'|(b & Hb & E')]; [left|right; exists b; split; [assumption|]]; (etransitivity; [exact E|exact E']). }
      destruct A as [A|A]; [|exact A]. exists bx. split; [assumption|].
      apply Rle_antisym; [apply Hbox; assumption|]. rewrite A. apply Hr. assumption.
    + assert (A : cm_max (compute_cofm n es ns) i = - dbl_max \/
                  exists b, In b ps /\ cm_max (compute_cofm n es ns) i = b_pos b i + b_rad b / 2).
      { cbn [cm_max compute_cofm].
        destruct (fold_max_att (fun c => cm_max c i) ns (fold_left (fun s b => Rmax s (b_pos b i + b_rad b / 2)) es (- dbl_max)))
          as [E|(c & Hc & E)].
        - rewrite E. destruct (fold_max_att (fun b => b_pos b i + b_rad b / 2) es (- dbl_max)) as [E'|(b & Hb & E')].
          + left. exact E'.
          + right. exists b. split; [unfold ps; apply in_or_app; auto|exact E'].
        - destruct (proj2 (Hch c Hc)) as [E'|(b & Hb & E')]; [left|right; exists b; split; [assumption|]]; (etransitivity; [exact E|exact E']). }
      destruct A as [A|A]; [|exact A]. exists bx. split; [assumption|].
      apply Rle_antisym; [|apply Hbox; assumption]. rewrite A. apply Hr. assumption.
  - intros E i. unfold ps in E. apply app_eq_nil in E. destruct E as [-> E]. cbn.
    assert (V : forall c, In c ns -> cm_min c i = dbl_max /\ cm_max c i = - dbl_max).
    { intros c Hc. destruct (in_ns2 _ _ _ _ HF Hc) as (q & Hq & Hok). apply (so_void _ _ _ Hok).
      destruct q as [|b q]; [reflexivity|]. exfalso.
      assert (In b (concat pss)) by (apply in_concat; exists (b :: q); split; [assumption|left; reflexivity]).
      rewrite E in H. destruct H. }
    split.
    + destruct (fold_min_att (fun c => cm_min c i) ns dbl_max) as [E'|(c & Hc & E')]; [exact E'|].
      etransitivity; [exact E'|]. apply V. assumption.
    + destruct (fold_max_att (fun c => cm_max c i) ns (- dbl_max)) as [E'|(c & Hc & E')]; [exact E'|].
      etransitivity; [exact E'|]. apply V. assumption.
Qed.

Lemma summary_perm n s ps ps' : Permutation ps ps' -> summary_ok n s ps -> summary_ok n s ps'.
Proof.
  intros HP H. assert (HI : forall b, In b ps' -> In b ps) by (intros b; apply Permutation_in, Permutation_sym, HP).
  assert (HI' : forall b, In b ps -> In b ps') by (intros b; apply Permutation_in, HP).
  constructor.
  - rewrite (so_mass _ _ _ H). apply suml_perm, HP.
  - intros i. rewrite (so_pos _ _ _ H). apply suml_perm, HP.
  - rewrite (so_sub _ _ _ H). apply Permutation_length, HP.
  - apply (so_rad0 _ _ _ H).
  - apply (so_lap0 _ _ _ H).
  - intros b Hb. apply (so_box _ _ _ H). auto.
  - intros b Hb. apply (so_rad _ _ _ H). auto.
  - intros b Hb. apply (so_lap _ _ _ H). auto.
  - intros Hn Hr i.
    assert (Hn' : ps <> []) by (intros ->; apply Permutation_nil in HP; contradiction).
    destruct (so_tight _ _ _ H Hn' ltac:(intros; apply Hr; auto) i) as [(b & Hb & E1) (b' & Hb' & E2)]. split; eauto.
  - intros -> i. apply (so_void _ _ _ H). apply Permutation_nil, Permutation_sym, HP.
Qed.

(** Every node of every tree. *)
Lemma eval_ok n bodies tr : forall s,
  (forall i, In i (leaves tr) -> 0 < b_mass (get_body bodies i)) ->
  eval (fcc_cofm n bodies) tr = inr s -> summary_ok n s (map (get_body bodies) (leaves tr)).
Proof.
  induction tr as [i|k ch IH] using tree_ind'; intros s Hm E; [discriminate|].
  cbn [eval] in E. injection E as <-.
  set (es := map (fun x => eval (fcc_cofm n bodies) (snd x)) ch).
  set (pss := flat_map (fun x => match snd x with Leaf _ => [] | Node _ _ => [map (get_body bodies) (leaves (snd x))] end) ch).
  assert (HP : Permutation (map (get_body bodies) (lefts es) ++ concat pss)
                           (map (get_body bodies) (leaves (Node k ch)))).
  { unfold es, pss. clear IH Hm. cbn [leaves]. induction ch as [|[d t] ch IHc]; [constructor|].
    cbn [flat_map map lefts snd]. rewrite !map_app. destruct t as [i|k' ch'].
    - cbn [eval leaves map app]. constructor. exact IHc.
    - change (eval (fcc_cofm n bodies) (Node k' ch')) with (inr nat (fcc_cofm n bodies k'
        (lefts (map (fun x => eval (fcc_cofm n bodies) (snd x)) ch')) (rights (map (fun x => eval (fcc_cofm n bodies) (snd x)) ch')))).
      cbn [lefts flat_map app map concat]. eapply Permutation_trans; [apply Permutation_app_swap_app|].
      apply Permutation_app_head. exact IHc. }
  eapply summary_perm; [exact HP|].
  unfold fcc_cofm. apply compute_cofm_ok.
  - intros b Hb. apply (Permutation_in _ HP) in Hb. apply in_map_iff in Hb. destruct Hb as (i & <- & Hi). auto.
  - unfold es, pss. clear HP es pss. cbn [leaves] in Hm. induction ch as [|[d t] ch IHc]; [constructor|].
    inversion IH; subst. cbn [flat_map map snd] in *.
    assert (Hm' : forall i, In i (flat_map (fun x => leaves (snd x)) ch) -> 0 < b_mass (get_body bodies i)).
    { intros i Hi. apply Hm. apply in_or_app. auto. }
    specialize (IHc H2 Hm'). destruct t as [i|k' ch'].
    + exact IHc.
    + change (eval (fcc_cofm n bodies) (Node k' ch')) with (inr nat (fcc_cofm n bodies k'
        (lefts (map (fun x => eval (fcc_cofm n bodies) (snd x)) ch')) (rights (map (fun x => eval (fcc_cofm n bodies) (snd x)) ch')))).
      cbn [rights flat_map app]. constructor; [|exact IHc].
      apply H1; [|reflexivity]. intros i Hi. apply Hm. apply in_or_app. auto.
Qed.
