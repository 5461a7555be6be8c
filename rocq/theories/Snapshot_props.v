(** C29, C30, C73: snapshot files. *)
From Coq Require Import String Ascii.
From Verif Require Import Base BuildTree_model IO_model Snapshot_model.
Local Open Scope Z_scope.

Lemma ch_eqb_spec a b : ch_eqb a b = true <-> a = b.
Proof. unfold ch_eqb. destruct (ascii_dec a b); split; intros; congruence. Qed.
Lemma str_eqb_spec a b : str_eqb a b = true <-> a = b.
Proof. unfold str_eqb. destruct (list_eq_dec ascii_dec a b); split; intros; congruence. Qed.
Lemma starts_spec p : forall s, starts p s = true <-> exists b, s = p ++ b.
Proof.
  induction p as [|a p IH]; intros s; cbn [starts].
  - split; [intros _; exists s; reflexivity|auto].
  - destruct s as [|c s]; [split; [discriminate|intros [b E]; discriminate]|]. rewrite andb_true_iff, ch_eqb_spec, IH. split.
    + intros [-> [b ->]]. exists b. reflexivity.
    + intros [b E]. injection E as -> ->. split; [reflexivity|exists b; reflexivity].
Qed.
Lemma strstr_spec p : forall s, strstr s p = true <-> exists a b, s = a ++ p ++ b.
Proof.
  induction s as [|c s IH]; cbn [strstr]; rewrite orb_true_iff, starts_spec.
  - split; [intros [[b E]|]; [exists [], b; exact E|discriminate]|]. intros (a & b & E). left. destruct a; [exists b; exact E|discriminate].
  - rewrite IH. split.
    + intros [[b E]|(a & b & ->)]; [exists [], b; exact E|exists (c :: a), b; reflexivity].
    + intros (a & b & E). destruct a as [|x a]; [left; exists b; exact E|right]. injection E as _ ->. exists a, b. reflexivity.
Qed.

(** ** Digits *)
Lemma digit_ok d : 0 <= d < 10 -> is_digit (digit d) = true /\ digit_val (digit d) = d /\ digit d <> underscore.
Proof.
  intros H. assert (D : d = 0 \/ d = 1 \/ d = 2 \/ d = 3 \/ d = 4 \/ d = 5 \/ d = 6 \/ d = 7 \/ d = 8 \/ d = 9) by lia.
  repeat destruct D as [D|D]; subst d; (split; [reflexivity|split; [reflexivity|discriminate]]).
Qed.
Lemma is_digit_val c : is_digit c = true -> 0 <= digit_val c < 10 /\ c = digit (digit_val c).
Proof.
  unfold is_digit, digit_val, digit. intros H. apply andb_true_iff in H. destruct H as [H1 H2]. apply N.leb_le in H1, H2. split; [lia|].
  replace (Z.to_N (48 + (Z.of_N (N_of_ascii c) - 48))) with (N_of_ascii c) by lia. symmetry. apply ascii_N_embedding.
Qed.
Definition five (n : Z) : str := [digit (n / 10000 mod 10); digit (n / 1000 mod 10); digit (n / 100 mod 10); digit (n / 10 mod 10); digit (n mod 10)].
Lemma dec_step k n : 10 <= n -> dec_digits (S k) n = dec_digits k (n / 10) ++ [digit (n mod 10)].
Proof. intros H. cbn [dec_digits]. destruct (Z.ltb_spec n 10); [lia|reflexivity]. Qed.
Lemma dec_last k n : n < 10 -> dec_digits (S k) n = [digit (n mod 10)].
Proof. intros H. cbn [dec_digits]. destruct (Z.ltb_spec n 10); [reflexivity|lia]. Qed.
Lemma dec5_small n : 0 <= n < 100000 -> dec5 n = five n.
Proof.
  intros H. unfold dec5, five. change 20%nat with (S (S (S (S (S 15))))). cbv zeta.
  destruct (Z.lt_ge_cases n 10); [rewrite dec_last by lia|rewrite dec_step by lia; destruct (Z.lt_ge_cases (n / 10) 10); [rewrite dec_last by lia|rewrite dec_step by lia;
    destruct (Z.lt_ge_cases (n / 10 / 10) 10); [rewrite dec_last by lia|rewrite dec_step by lia; destruct (Z.lt_ge_cases (n / 10 / 10 / 10) 10); [rewrite dec_last by lia|rewrite dec_step by lia; rewrite dec_last by lia]]]].
  all: cbn [app length Nat.sub repeat]; repeat (apply (f_equal2 (@cons ascii)); [f_equal; lia|]); reflexivity.
Qed.
Lemma dec5_large n : 100000 <= n -> exists front d, dec5 n = front ++ digit d :: five (n mod 100000) /\ 0 <= d < 10.
Proof.
  intros H. unfold dec5. cbv zeta. change 20%nat with (S (S (S (S (S (S 14)))))). rewrite (dec_step _ n) by lia. rewrite (dec_step _ (n / 10)) by lia. rewrite (dec_step _ (n / 10 / 10)) by lia.
  rewrite (dec_step _ (n / 10 / 10 / 10)) by lia. rewrite (dec_step _ (n / 10 / 10 / 10 / 10)) by lia. cbn [dec_digits]. set (fr := if _ <? 10 then _ else _).
  set (m := n / 10 / 10 / 10 / 10 / 10). exists fr, (m mod 10). split; [|apply Z.mod_pos_bound; lia].
  rewrite !app_length. cbn [length]. replace (5 - _)%nat with 0%nat by lia. cbn [repeat app]. rewrite <- !app_assoc. cbn [app]. f_equal. f_equal. unfold five.
  repeat (apply (f_equal2 (@cons ascii)); [f_equal; lia|]). reflexivity.
Qed.

(** ** Reading a name of at least thirteen characters *)
Lemma char_at_app pre l i k : i = Z.of_nat (length pre) + Z.of_nat k -> char_at (pre ++ l) i = nth_error l k.
Proof. intros ->. unfold char_at. destruct (Z.ltb_spec (Z.of_nat (length pre) + Z.of_nat k) 0); [lia|]. rewrite nth_error_app2 by lia. f_equal. lia. Qed.
Lemma snapshot_form p pre u d4 d3 d2 d1 d0 tail : length tail = 7%nat ->
  is_prefix_snapshot p (pre ++ u :: d4 :: d3 :: d2 :: d1 :: d0 :: tail) =
  let name := pre ++ u :: d4 :: d3 :: d2 :: d1 :: d0 :: tail in
  if negb (strstr name p) then Some (-1) else if negb (strstr name ext) then Some (-1) else
  if forallb is_digit [d4; d3; d2; d1; d0] then
    if ch_eqb u underscore && str_eqb p pre then Some (digit_val d0 + 10 * digit_val d1 + 100 * digit_val d2 + 1000 * digit_val d3 + 10000 * digit_val d4) else Some (-1)
  else Some (-1).
Proof.
  intros Ht. cbv zeta. unfold is_prefix_snapshot. set (l := u :: d4 :: d3 :: d2 :: d1 :: d0 :: tail). destruct (negb (strstr (pre ++ l) p)); [reflexivity|]. destruct (negb (strstr (pre ++ l) ext)); [reflexivity|].
  assert (L : Z.of_nat (length (pre ++ l)) = Z.of_nat (length pre) + 13) by (rewrite app_length; unfold l; cbn [length]; rewrite Ht; lia). cbv zeta. rewrite L. cbn [read_digits].
  rewrite (char_at_app pre l _ 5) by lia. rewrite (char_at_app pre l _ 4) by lia. rewrite (char_at_app pre l _ 3) by lia. rewrite (char_at_app pre l _ 2) by lia. rewrite (char_at_app pre l _ 1) by lia. rewrite (char_at_app pre l _ 0) by lia.
  unfold l at 1 2 3 4 5 6. cbn [nth_error forallb].
  destruct (is_digit d0), (is_digit d1), (is_digit d2), (is_digit d3), (is_digit d4); cbn [andb]; try reflexivity.
  replace (firstn _ (pre ++ l)) with pre.
  - destruct (ch_eqb u underscore); cbn [negb andb]; [|reflexivity]. destruct (str_eqb p pre); [|reflexivity]. f_equal. lia.
  - replace (Z.to_nat _) with (length pre) by lia. rewrite firstn_app, firstn_all, Nat.sub_diag, firstn_O, app_nil_r. reflexivity.
Qed.
Lemma strstr_in a p b : strstr (a ++ p ++ b) p = true.
Proof. apply strstr_spec. exists a, b. reflexivity. Qed.
Lemma snapshot_cons p n : 0 <= n < 100000 -> snapshot_name p n = p ++ underscore :: digit (n / 10000 mod 10) :: digit (n / 1000 mod 10) :: digit (n / 100 mod 10) :: digit (n / 10 mod 10) :: digit (n mod 10) :: ext.
Proof. intros H. unfold snapshot_name. rewrite dec5_small by exact H. reflexivity. Qed.

(** The name written for a step below 100000 is recognised, with its step, whatever
    the prefix. *)
Theorem C29_roundtrip p n : 0 <= n < 100000 -> is_prefix_snapshot p (snapshot_name p n) = Some n.
Proof.
  intros H. rewrite snapshot_cons by exact H. rewrite snapshot_form by reflexivity. cbv zeta.
  match goal with |- context [strstr (p ++ ?b) p] => pose proof (strstr_in [] p b) as Q; cbn [app] in Q; rewrite Q end. cbn [negb]. match goal with |- context [strstr ?x ext] => replace (strstr x ext) with true end.
  2: { symmetry. apply strstr_spec. exists (p ++ [underscore; digit (n / 10000 mod 10); digit (n / 1000 mod 10); digit (n / 100 mod 10); digit (n / 10 mod 10); digit (n mod 10)]), []. rewrite <- app_assoc. reflexivity. }
  cbn [negb forallb]. assert (D : forall x, is_digit (digit (x mod 10)) = true /\ digit_val (digit (x mod 10)) = x mod 10) by (intros x; destruct (digit_ok (x mod 10)) as (A & B & _); [apply Z.mod_pos_bound; lia|auto]).
  rewrite !(proj1 (D _)), !(proj2 (D _)). cbn [andb]. rewrite (proj2 (str_eqb_spec p p) eq_refl). replace (ch_eqb underscore underscore) with true by reflexivity. cbn [andb]. f_equal. lia.
Qed.
(** From step 100000 on it is not recognised any more. *)
Theorem C29_large_step p n : 100000 <= n -> is_prefix_snapshot p (snapshot_name p n) = Some (-1).
Proof.
  intros H. unfold snapshot_name. destruct (dec5_large n H) as (fr & d & -> & Hd).
  replace (p ++ underscore :: (fr ++ digit d :: five (n mod 100000)) ++ ext) with ((p ++ underscore :: fr) ++ digit d :: five (n mod 100000) ++ ext) by (rewrite <- (app_assoc p); cbn [app]; rewrite <- (app_assoc fr); reflexivity).
  unfold five. cbn [app]. rewrite snapshot_form by reflexivity. cbv zeta. destruct (negb _); [reflexivity|]. destruct (negb _); [reflexivity|]. destruct (forallb _ _); [|reflexivity].
  destruct (ch_eqb (digit d) underscore) eqn:E; [|reflexivity]. apply ch_eqb_spec in E. destruct (digit_ok d Hd) as (_ & _ & Q). contradiction.
Qed.
Theorem C29_large_step_refuted : exists p n, 0 <= n /\ is_prefix_snapshot p (snapshot_name p n) <> Some n.
Proof. exists [], 100000. split; [lia|]. rewrite C29_large_step by lia. discriminate. Qed.
(** A snapshot of another prefix is not recognised. *)
Theorem C29_other_prefix p q n : 0 <= n < 100000 -> p <> q -> is_prefix_snapshot p (snapshot_name q n) = Some (-1).
Proof.
  intros H Hne. rewrite snapshot_cons by exact H. rewrite snapshot_form by reflexivity. cbv zeta. destruct (negb _); [reflexivity|]. destruct (negb _); [reflexivity|]. destruct (forallb _ _); [|reflexivity].
  destruct (str_eqb p q) eqn:E; [apply str_eqb_spec in E; contradiction|]. rewrite andb_false_r. reflexivity.
Qed.
Lemma ext_chars k c : nth_error ext k = Some c -> c <> underscore /\ (k = 0%nat -> is_digit c = false).
Proof. do 7 (destruct k as [|k]; [intros E; injection E as <-; split; [discriminate|intros Q; try discriminate Q; reflexivity]|]). intros E. destruct k; discriminate. Qed.
(** Conversely: with a prefix that does not contain ".h5part", whatever is recognised
    is the name of a snapshot of the prefix and of that step. *)
Theorem C29_sound p name k : strstr p ext = false -> is_prefix_snapshot p name = Some k -> k <> -1 -> 0 <= k < 100000 /\ name = snapshot_name p k.
Proof.
  intros Hp H Hk.
  assert (L : (13 <= length name)%nat).
  { destruct (Nat.le_gt_cases 13 (length name)) as [|C]; [assumption|exfalso]. unfold is_prefix_snapshot in H. destruct (negb _); [congruence|]. destruct (negb _); [congruence|]. cbv zeta in H.
    destruct (read_digits _ _ _ _ _) as [[v|]|]; [|congruence|discriminate]. unfold char_at in H. destruct (Z.ltb_spec (Z.of_nat (length name) - 8 - 5) 0); [discriminate|lia]. }
  destruct (skipn (length name - 13) name) as [|u [|d4 [|d3 [|d2 [|d1 [|d0 tail]]]]]] eqn:E; pose proof (f_equal (@length _) E) as LE; rewrite skipn_length in LE; cbn in LE; try lia.
  assert (Nm : name = firstn (length name - 13) name ++ u :: d4 :: d3 :: d2 :: d1 :: d0 :: tail) by (rewrite <- E; symmetry; apply firstn_skipn).
  set (pre := firstn (length name - 13) name) in *. clearbody pre. assert (Lt : length tail = 7%nat) by lia. clear E LE. subst name. rewrite snapshot_form in H by exact Lt. cbv zeta in H.
  destruct (negb (strstr _ p)); [congruence|]. destruct (negb (strstr _ ext)) eqn:Se; [congruence|]. apply negb_false_iff in Se. destruct (forallb _ _) eqn:Fd; [|congruence]. destruct (ch_eqb u underscore && str_eqb p pre) eqn:Eu; [|congruence].
  apply andb_true_iff in Eu. destruct Eu as [Eu Ep]. apply ch_eqb_spec in Eu. apply str_eqb_spec in Ep. subst u pre. injection H as <-.
  cbn [forallb] in Fd. rewrite !andb_true_iff in Fd. destruct Fd as (F4 & F3 & F2 & F1 & F0 & _).
  destruct (is_digit_val _ F4) as [B4 E4], (is_digit_val _ F3) as [B3 E3], (is_digit_val _ F2) as [B2 E2], (is_digit_val _ F1) as [B1 E1], (is_digit_val _ F0) as [B0 E0].
  set (v := digit_val d0 + 10 * digit_val d1 + 100 * digit_val d2 + 1000 * digit_val d3 + 10000 * digit_val d4). assert (V : 0 <= v < 100000) by (unfold v; lia). split; [exact V|]. rewrite snapshot_cons by exact V.
  assert (T : tail = ext).
  { apply strstr_spec in Se. destruct Se as (a & b & S). assert (Len : (length a + 7 + length b = length p + 13)%nat). { pose proof (f_equal (@length _) S) as Q. rewrite !app_length in Q. cbn [length] in Q. change (length ext) with 7%nat in Q. lia. }
    assert (At : forall j, (j < 7)%nat -> nth_error (p ++ underscore :: d4 :: d3 :: d2 :: d1 :: d0 :: tail) (length a + j) = nth_error ext j).
    { intros j Hj. rewrite S. rewrite nth_error_app2 by lia. replace (length a + j - length a)%nat with j by lia. apply nth_error_app1. exact Hj. }
    destruct (Nat.le_gt_cases (length a + 7) (length p)) as [C1|C1]; [|destruct (Nat.le_gt_cases (length a) (length p)) as [C2|C2]; [|destruct (Nat.eq_dec (length a) (length p + 6)) as [C3|C3]]].
    - exfalso. apply (f_equal (firstn (length p))) in S. rewrite firstn_app, firstn_all, Nat.sub_diag, firstn_O, app_nil_r in S. rewrite firstn_app in S. rewrite firstn_all2 in S by lia. rewrite firstn_app in S. rewrite (firstn_all2 ext) in S by (change (length ext) with 7%nat; lia).
      assert (Q : strstr p ext = true) by (apply strstr_spec; eexists; eexists; exact S). congruence.
    - exfalso. specialize (At (length p - length a)%nat ltac:(lia)). replace (length a + (length p - length a))%nat with (length p) in At by lia. rewrite nth_error_app2 in At by lia. rewrite Nat.sub_diag in At. cbn [nth_error] in At. symmetry in At. apply ext_chars in At. tauto.
    - assert (S' : (p ++ [underscore; d4; d3; d2; d1; d0]) ++ tail = a ++ ext ++ b) by (rewrite <- app_assoc; exact S). apply (f_equal (skipn (length a))) in S'.
      rewrite skipn_app in S'. rewrite (skipn_all2 (n := length a)) in S' by (rewrite app_length; cbn; lia). rewrite app_length in S'. cbn [length] in S'. replace (length a - (length p + 6))%nat with 0%nat in S' by lia. cbn [app skipn] in S'.
      rewrite skipn_app, skipn_all, Nat.sub_diag in S'. cbn [app skipn] in S'. destruct b as [|x b]; [rewrite app_nil_r in S'; exact S'|]. cbn in Len. lia.
    - exfalso. specialize (At 0%nat ltac:(lia)). rewrite Nat.add_0_r, nth_error_app2 in At by lia.
      assert (Dg : exists c, nth_error (underscore :: d4 :: d3 :: d2 :: d1 :: d0 :: tail) (length a - length p) = Some c /\ is_digit c = true).
      { assert (R : (1 <= length a - length p <= 5)%nat) by lia. destruct (length a - length p)%nat as [|[|[|[|[|[|j]]]]]]; try lia; eexists; split; try reflexivity; assumption. }
      destruct Dg as (c & Ec & Dc). rewrite Ec in At. symmetry in At. apply ext_chars in At. destruct At as [_ At]. rewrite (At eq_refl) in Dc. discriminate. }
  rewrite T. f_equal. f_equal. rewrite E4, E3, E2, E1, E0 at 1. unfold v. repeat (apply (f_equal2 (@cons ascii)); [f_equal; lia|]). reflexivity.
Qed.
Definition S_ := list_ascii_of_string.
(** Not so for a prefix that contains ".h5part", and a short name makes the loop read
    in front of the string. *)
Theorem C29_sound_refuted : exists p name, is_prefix_snapshot p name = Some 12 /\ name <> snapshot_name p 12.
Proof. exists (S_ "a.h5part"), (S_ "a.h5part_00012.backup"). split; [vm_compute; reflexivity|vm_compute; discriminate]. Qed.
Theorem C29_short_name_refuted : exists p name, is_prefix_snapshot p name = None.
Proof. exists (S_ "1"), (S_ "1.h5part"). vm_compute. reflexivity. Qed.
(** ... which cannot happen for names of thirteen or more characters. *)
Theorem C29_defined p name : (13 <= length name)%nat -> is_prefix_snapshot p name <> None.
Proof.
  intros L. destruct (skipn (length name - 13) name) as [|u [|d4 [|d3 [|d2 [|d1 [|d0 tail]]]]]] eqn:E; pose proof (f_equal (@length _) E) as LE; rewrite skipn_length in LE; cbn in LE; try lia.
  rewrite <- (firstn_skipn (length name - 13) name), E. rewrite snapshot_form by lia. cbv zeta. destruct (negb _); [discriminate|]. destruct (negb _); [discriminate|]. destruct (forallb _ _); [|discriminate]. destruct (_ && _); discriminate.
Qed.
Example C29_case : snapshot_name (S_ "out/sim") 42 = S_ "out/sim_00042.h5part" /\ is_prefix_snapshot (S_ "sim") (S_ "sim_00042.h5part") = Some 42 /\ is_prefix_snapshot (S_ "si") (S_ "sim_00042.h5part") = Some (-1).
Proof. vm_compute. auto. Qed.

(** ** C30: the search *)
Definition recorded (d : dir) (base : str) (k it : Z) : Prop :=
  exists f g, find_file (snapshot_name base k) d = Some f /\ find_step k (f_steps f) = Some g /\ find_name "iteration"%string (g_attr g) = Some it.
Lemma search_spec d base it entries : forall s0 k, find_iteration_loop d base it entries s0 = Step k ->
  (exists e, In e entries /\ is_prefix_snapshot base e = Some k /\ 0 <= k /\ recorded d base k it) \/
  ((forall e s, In e entries -> is_prefix_snapshot base e = Some s -> 0 <= s -> exists v, recorded d base s v /\ v <> it) /\
   (entries = [] /\ k = s0 \/ exists e l, entries = l ++ [e] /\ is_prefix_snapshot base e = Some k)).
Proof.
  induction entries as [|e r IH]; intros s0 k H; cbn [find_iteration_loop] in H.
  - injection H as <-. right. split; [intros e s []|left; auto].
  - destruct (is_prefix_snapshot base e) as [s|] eqn:Es; [|discriminate]. destruct (Z.ltb_spec s 0) as [Hs|Hs].
    + destruct (IH _ _ H) as [(e' & He & Q)|[Q1 Q2]]; [left; exists e'; split; [right; exact He|exact Q]|right]. split.
      * intros e' s' [<-|He'] Es' Hs'; [rewrite Es in Es'; injection Es' as <-; lia|eapply Q1; eassumption].
      * right. destruct Q2 as [[-> ->]|(e' & l & -> & Q)]; [exists e, []; auto|exists e', (e :: l); auto].
    + destruct (find_file (snapshot_name base s) d) as [f|] eqn:Ef; [|discriminate]. destruct (find_step s (f_steps f)) as [g|] eqn:Eg; [|discriminate]. destruct (find_name _ _) as [v|] eqn:Ev; [|discriminate].
      assert (R : recorded d base s v) by (exists f, g; auto). destruct (Z.eqb_spec v it) as [->|Hne].
      * injection H as <-. left. exists e. split; [left; reflexivity|auto].
      * destruct (IH _ _ H) as [(e' & He & Q)|[Q1 Q2]]; [left; exists e'; split; [right; exact He|exact Q]|right]. split.
        -- intros e' s' [<-|He'] Es' Hs'; [rewrite Es in Es'; injection Es' as <-; exists v; auto|eapply Q1; eassumption].
        -- right. destruct Q2 as [[-> ->]|(e' & l & -> & Q)]; [exists e, []; auto|exists e', (e :: l); auto].
Qed.
Lemma recorded_fun d base k a b : recorded d base k a -> recorded d base k b -> a = b.
Proof. intros (f & g & A1 & A2 & A3) (f' & g' & B1 & B2 & B3). congruence. Qed.
(** When some snapshot of the directory has the iteration, a snapshot with the
    iteration is found. *)
Theorem C30_found d base it k e s : find_iteration_snapshot d base it = Step k ->
  In e (map fst d) -> is_prefix_snapshot base e = Some s -> 0 <= s -> recorded d base s it -> recorded d base k it.
Proof.
  intros H He Es Hs Hr. destruct (search_spec _ _ _ _ _ _ H) as [(e' & _ & _ & _ & Q)|[Q _]]; [exact Q|].
  destruct (Q e s He Es Hs) as (v & Hv & Hne). exfalso. apply Hne. eapply recorded_fun; eassumption.
Qed.
(** No snapshot at all: -1. *)
Theorem C30_none d base it : (forall e, In e (map fst d) -> is_prefix_snapshot base e = Some (-1)) -> find_iteration_snapshot d base it = Step (-1).
Proof.
  unfold find_iteration_snapshot. generalize (map fst d) as l. induction l as [|e l IH]; intros H; [reflexivity|]. cbn [find_iteration_loop]. rewrite (H e) by (left; reflexivity). cbn. apply IH. intros; apply H; right; assumption.
Qed.
(** Without a match the step of the last entry comes back, a failure only when that
    entry is no snapshot. *)
Theorem C30_no_match d base it k : find_iteration_snapshot d base it = Step k -> ~ recorded d base k it ->
  (d = [] /\ k = -1) \/ exists e l, map fst d = l ++ [e] /\ is_prefix_snapshot base e = Some k.
Proof.
  intros H Hn. destruct (search_spec _ _ _ _ _ _ H) as [(e & _ & _ & _ & Q)|[_ [[E ->]|Q]]]; [contradiction|left|right; exact Q].
  destruct d; [auto|discriminate].
Qed.
Definition mk_snap (k it : Z) : h5 := H5 None [(k, Group [("iteration"%string, it)] [])].
Theorem C30_no_match_refuted : exists d base it k, find_iteration_snapshot d base it = Step k /\ 0 <= k /\ ~ recorded d base k it.
Proof.
  exists [(snapshot_name (S_ "sim") 3, mk_snap 3 30)], (S_ "sim"), 99, 3. split; [vm_compute; reflexivity|]. split; [lia|].
  intros R. assert (Q : 99 = 30); [|discriminate Q]. eapply recorded_fun; [exact R|]. eexists. eexists. split; [vm_compute; reflexivity|]. split; reflexivity.
Qed.
Example C30_case : find_iteration_snapshot [(S_ "..", H5 None []); (snapshot_name (S_ "sim") 3, mk_snap 3 30); (snapshot_name (S_ "sim") 4, mk_snap 4 40); (snapshot_name (S_ "sim") 5, mk_snap 5 50)] (S_ "sim") 40 = Step 4.
Proof. vm_compute. reflexivity. Qed.

(** ** C73: removal of old snapshots *)
Lemma path_eqb_spec a b : path_eqb a b = true <-> a = b.
Proof. unfold path_eqb. rewrite andb_true_iff, !str_eqb_spec. destruct a, b; cbn. split; [intros [-> ->]; reflexivity|intros E; injection E; auto]. Qed.
Lemma remove_file_in n m l : In m (remove_file n l) <-> In m l /\ m <> n.
Proof.
  unfold remove_file. rewrite filter_In, negb_true_iff. split; intros [A B]; split; auto.
  - intros ->. rewrite (proj2 (path_eqb_spec n n) eq_refl) in B. discriminate.
  - destruct (path_eqb n m) eqn:E; [apply path_eqb_spec in E; congruence|reflexivity].
Qed.
Lemma remove_loop_spec base th cwd es : forall fs r, remove_loop base th es cwd fs = Some r ->
  forall d m, In (d, m) r <-> In (d, m) fs /\ ~ (d = cwd /\ In m es /\ exists s, is_prefix_snapshot base m = Some s /\ th < s).
Proof.
  induction es as [|e es IH]; intros fs r H d m; cbn [remove_loop] in H.
  - injection H as <-. split; [intros Hm; split; [exact Hm|intros (_ & [] & _)]|tauto].
  - destruct (is_prefix_snapshot base e) as [s|] eqn:Es; [|discriminate]. rewrite (IH _ _ H d m). destruct (Z.ltb_spec th s) as [Hs|Hs].
    + rewrite remove_file_in. split.
      * intros [[A B] C]. split; [exact A|]. intros (-> & [<-|D] & E); [apply B; reflexivity|apply C; auto].
      * intros [A C]. split; [split; [exact A|]|].
        -- intros E. injection E as -> ->. apply C. split; [reflexivity|]. split; [left; reflexivity|exists s; auto].
        -- intros (E & D & F). apply C. split; [exact E|]. split; [right; exact D|exact F].
    + split; intros [A C]; (split; [exact A|]).
      * intros (-> & [<-|D] & (s' & E1 & E2)); [rewrite Es in E1; injection E1 as <-; lia|apply C; split; [reflexivity|split; [exact D|exists s'; auto]]].
      * intros (E & D & F). apply C. split; [exact E|]. split; [right; exact D|exact F].
Qed.
(** When the output directory is the working directory, exactly the snapshots of the
    prefix with a later step are removed, and nothing elsewhere. *)
Theorem C73_removed outdir base th fs r : remove_prefix outdir base th outdir fs = Some r ->
  forall d m, In (d, m) r <-> In (d, m) fs /\ ~ (d = outdir /\ exists s, is_prefix_snapshot base m = Some s /\ th < s).
Proof.
  intros H d m. unfold remove_prefix in H. rewrite (remove_loop_spec _ _ _ _ _ _ H d m). split; intros [A B]; (split; [exact A|]).
  - intros [-> C]. apply B. split; [reflexivity|]. split; [|exact C]. apply in_map_iff. exists (outdir, m). split; [reflexivity|]. apply filter_In. split; [exact A|]. apply str_eqb_spec. reflexivity.
  - intros (-> & _ & C). apply B. auto.
Qed.
Theorem C73_removed_snapshots outdir base th fs r s : remove_prefix outdir base th outdir fs = Some r -> 0 <= s < 100000 -> th < s -> ~ In (outdir, snapshot_name base s) r.
Proof. intros H Hs Ht Hi. apply (C73_removed _ _ _ _ _ H) in Hi. apply (proj2 Hi). split; [reflexivity|]. exists s. split; [apply C29_roundtrip; exact Hs|exact Ht]. Qed.
(** In another directory no snapshot is removed. *)
Theorem C73_other_directory_kept outdir base th cwd fs r m : outdir <> cwd -> remove_prefix outdir base th cwd fs = Some r -> In (outdir, m) fs -> In (outdir, m) r.
Proof. intros Hne H Hi. apply (remove_loop_spec _ _ _ _ _ _ H). split; [exact Hi|]. intros [E _]. contradiction. Qed.
(** A stale snapshot stays and the file of that name in the working directory goes. *)
Theorem C73_other_directory_refuted : exists outdir base cwd fs r m, outdir <> cwd /\ remove_prefix outdir base (-1) cwd fs = Some r /\
  In (outdir, m) r /\ is_prefix_snapshot base m = Some 1 /\ In (cwd, m) fs /\ ~ In (cwd, m) r.
Proof.
  exists (S_ "out"), (S_ "sim"), (S_ "."), [(S_ "out", S_ "sim_00001.h5part"); (S_ ".", S_ "sim_00001.h5part")], [(S_ "out", S_ "sim_00001.h5part")], (S_ "sim_00001.h5part").
  split; [discriminate|]. split; [vm_compute; reflexivity|]. split; [left; reflexivity|]. split; [vm_compute; reflexivity|]. split; [right; left; reflexivity|]. intros [E|[]]. discriminate E.
Qed.
Example C73_case : remove_prefix (S_ ".") (S_ "sim") 1 (S_ ".") (map (fun n => (S_ ".", S_ n)) ["sim_00001.h5part"; "sim_00002.h5part"; "simx_00007.h5part"]%string) =
  Some (map (fun n => (S_ ".", S_ n)) ["sim_00001.h5part"; "simx_00007.h5part"]%string).
Proof. vm_compute. reflexivity. Qed.
Print Assumptions C29_sound.
Print Assumptions C30_found.
