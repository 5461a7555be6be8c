From Coq Require Import String Ascii Reals Lra Lia Permutation.
From Verif Require Import Base Snapshot_model Params_model.
Local Open Scope Z_scope.

(** ** What a text means *)
Definition dchar (d : nat) : ascii := ascii_of_nat (48 + d).
Definition is_number (ds : list nat) : Prop := List.Forall (fun d => (d < 10)%nat) ds.
Fixpoint intpart (ds : list nat) : Z := match ds with [] => 0 | d :: r => Z.of_nat d * 10 ^ Z.of_nat (length r) + intpart r end.
Fixpoint fracpart (ds : list nat) : R := match ds with [] => 0%R | d :: r => ((INR d + fracpart r) / 10)%R end.
Inductive signed : bool -> str -> Prop := Sg_none : signed false [] | Sg_plus : signed false ["+"%char] | Sg_minus : signed true ["-"%char].
Definition apply_sign (neg : bool) (z : Z) : Z := if neg then - z else z.
Definition apply_signR (neg : bool) (r : R) : R := if neg then (- r)%R else r.
Inductive exponent : str -> Z -> Prop :=
| Ex_none : exponent [] 0
| Ex_some : forall e neg sg x, e = "e"%char \/ e = "E"%char -> signed neg sg -> is_number x -> x <> [] -> exponent (e :: sg ++ map dchar x) (apply_sign neg (intpart x)).
Inductive fraction : str -> list nat -> Prop := Fr_none : fraction [] [] | Fr_some : forall b, is_number b -> fraction ("."%char :: map dchar b) b.
(** the same word up to the case, with blanks for underscores *)
Definition same_char (w t : ascii) : Prop := t = w \/ to_lower t = w \/ (w = "_"%char /\ t = " "%char).
Inductive denotes : kind -> str -> value -> Prop :=
| D_yes : forall t, t = txt "yes" \/ t = txt "true" -> denotes KBool t (VB true)
| D_no : forall t, t = txt "no" \/ t = txt "false" -> denotes KBool t (VB false)
| D_int : forall bits neg sg ds, signed neg sg -> is_number ds -> ds <> [] -> 0 < bits ->
    - 2 ^ (bits - 1) <= apply_sign neg (intpart ds) < 2 ^ (bits - 1) -> denotes (KInt bits) (sg ++ map dchar ds) (VZ (apply_sign neg (intpart ds)))
| D_ushort : forall ds, is_number ds -> ds <> [] -> intpart ds < 2 ^ 16 -> denotes KUShort (map dchar ds) (VZ (intpart ds))
| D_real : forall neg sg a fr b ex x, signed neg sg -> is_number a -> fraction fr b -> a ++ b <> [] -> exponent ex x ->
    denotes KReal (sg ++ map dchar a ++ fr ++ ex) (VD (apply_signR neg (IZR (intpart a) + fracpart b) * powerRZ 10 x)%R)
| D_string : forall t, ~ In nul t -> (length t <= 510)%nat -> denotes KString t (VS t)
| D_keyword : forall words exits w e t, In (w, e) words -> In (words, exits) [kernel_words; eos_words; viscosity_words] -> Forall2 same_char (txt w) t -> denotes (KKeyword (words, exits)) t (VK e).

(** ** What a line says *)
Definition blanks (b : str) : Prop := List.Forall (fun c => c = " "%char \/ c = tab) b.
Definition plain (t : str) : Prop :=
  (exists c r, t = c :: r /\ c <> " "%char /\ c <> tab /\ c <> "'"%char /\ c <> """"%char) /\ (exists c r, t = r ++ [c] /\ c <> " "%char /\ c <> tab).
Inductive written (t : str) : str -> Prop :=
| W_plain : plain t -> written t t
| W_quoted : forall q, q = "'"%char \/ q = """"%char -> written t (q :: t ++ [q]).
Inductive comment : str -> Prop := Co_none : comment [] | Co_some : forall r, comment (hash :: r).
Definition line_for (name t l : str) : Prop :=
  exists b1 b2 b3 b4 wr c, blanks b1 /\ blanks b2 /\ blanks b3 /\ blanks b4 /\ written t wr /\ comment c /\ ~ In hash t /\ l = b1 ++ name ++ b2 ++ "="%char :: b3 ++ wr ++ b4 ++ c.
Definition says_nothing (l : str) : Prop := exists b c, blanks b /\ comment c /\ l = b ++ c.

(** ** Characters and texts *)
Lemma ch_eqb_eq : forall a b, ch_eqb a b = true <-> a = b.
Proof. intros. unfold ch_eqb. destruct (ascii_dec a b); split; intros; congruence. Qed.
Lemma ch_eqb_neq : forall a b, ch_eqb a b = false <-> a <> b.
Proof. intros. unfold ch_eqb. destruct (ascii_dec a b); split; intros; congruence. Qed.
Lemma str_eqb_eq : forall a b, str_eqb a b = true <-> a = b.
Proof. intros. unfold str_eqb. destruct (list_eq_dec ascii_dec a b); split; intros; congruence. Qed.
Lemma txt_inj : forall a b, txt a = txt b -> a = b.
Proof. intros a b H. rewrite <- (string_of_list_ascii_of_string a), <- (string_of_list_ascii_of_string b). unfold txt in H. rewrite H. reflexivity. Qed.
Lemma take_while_all : forall f a b, List.Forall (fun c => f c = true) a -> (b = [] \/ exists c r, b = c :: r /\ f c = false) -> take_while f (a ++ b) = a /\ drop_while f (a ++ b) = b.
Proof.
  intros f a b H Hb. induction H as [|c r Hc Hr IH]; cbn [app take_while drop_while].
  - destruct Hb as [->|(c & r & -> & Hc)]; cbn [take_while drop_while]; [tauto|]. rewrite Hc. tauto.
  - rewrite Hc. destruct IH as [-> ->]. tauto.
Qed.
Lemma drop_while_app : forall f a c b, f c = false -> drop_while f (a ++ c :: b) = drop_while f a ++ c :: b.
Proof. intros f a c b Hc. induction a as [|x a IH]; cbn [app drop_while]; [rewrite Hc; reflexivity|]. destruct (f x); [exact IH | reflexivity]. Qed.
Lemma drop_while_blanks : forall b s, blanks b -> drop_while is_blank (b ++ s) = drop_while is_blank s.
Proof. intros b s H. induction H as [|c r Hc Hr IH]; cbn [app drop_while]; [reflexivity|]. destruct Hc as [->| ->]; exact IH. Qed.
Lemma blank_spec : forall c, is_blank c = false <-> c <> " "%char /\ c <> tab.
Proof. intros c. unfold is_blank. rewrite Bool.orb_false_iff, ! ch_eqb_neq. tauto. Qed.
Lemma blanks_rev : forall b, blanks b -> blanks (rev b).
Proof. intros b H. apply Forall_rev, H. Qed.
Definition edges (t : str) : Prop := (exists c r, t = c :: r /\ is_blank c = false) /\ (exists c r, t = r ++ [c] /\ is_blank c = false).
Lemma trim_text : forall b1 t b2, blanks b1 -> blanks b2 -> edges t -> trim (b1 ++ t ++ b2) = t.
Proof.
  intros b1 t b2 H1 H2 [(c & r & Et & Hc) (c' & r' & Et' & Hc')]. unfold trim. rewrite drop_while_blanks by exact H1.
  rewrite Et at 1. cbn [app drop_while]. rewrite Hc. change (c :: r ++ b2) with ((c :: r) ++ b2). rewrite <- Et, rev_app_distr.
  rewrite drop_while_blanks by (apply blanks_rev, H2). rewrite Et' at 1. rewrite rev_app_distr. cbn [rev app drop_while]. rewrite Hc'.
  change (c' :: rev r') with (rev [c'] ++ rev r'). rewrite <- rev_app_distr, rev_involutive, <- Et'. reflexivity.
Qed.
Lemma trim_text_l : forall b1 t, blanks b1 -> edges t -> trim (b1 ++ t) = t.
Proof. intros b1 t H1 H. rewrite <- (app_nil_r t) at 1. apply trim_text; [exact H1 | constructor | exact H]. Qed.
Lemma trim_text_r : forall t b2, blanks b2 -> edges t -> trim (t ++ b2) = t.
Proof. intros t b2 H1 H. apply (trim_text [] t b2); [constructor | exact H1 | exact H]. Qed.
Lemma trim_comment : forall b1 t r, blanks b1 -> (exists c s, t = c :: s /\ is_blank c = false) -> exists r', trim (b1 ++ t ++ hash :: r) = t ++ hash :: r'.
Proof.
  intros b1 t r H1 (c & s & Et & Hc). unfold trim. rewrite drop_while_blanks by exact H1. rewrite Et. cbn [app drop_while]. rewrite Hc.
  exists (rev (drop_while is_blank (rev r))). change (c :: s ++ hash :: r) with ((c :: s) ++ hash :: r). rewrite <- Et. rewrite rev_app_distr. cbn [rev]. rewrite <- app_assoc. cbn [app].
  rewrite drop_while_app by reflexivity. rewrite rev_app_distr. cbn [rev]. rewrite rev_involutive, <- app_assoc. cbn [app]. rewrite Et. reflexivity.
Qed.
Lemma written_edges : forall t wr, written t wr -> edges wr.
Proof.
  intros t wr H. destruct H as [[(c & r & E & H1 & H2 & H3 & H4) (c' & r' & E' & H1' & H2')]|q Hq].
  - split; [exists c, r | exists c', r']; (split; [assumption|]); apply blank_spec; tauto.
  - assert (HB : is_blank q = false) by (destruct Hq as [->| ->]; reflexivity). split; [exists q, (t ++ [q]) | exists q, (q :: t)]; split; [reflexivity | exact HB | reflexivity | exact HB].
Qed.
Lemma unquote_written : forall t wr, written t wr -> unquote wr = t.
Proof.
  intros t wr H. destruct H as [[(c & r & E & H1 & H2 & H3 & H4) _]|q Hq].
  - rewrite E. unfold unquote, is_quote. replace (ch_eqb c "'") with false by (symmetry; apply ch_eqb_neq; exact H3). replace (ch_eqb c """") with false by (symmetry; apply ch_eqb_neq; exact H4). reflexivity.
  - cbn [unquote]. replace (is_quote q) with true by (destruct Hq as [->| ->]; reflexivity). rewrite app_length. cbn [length].
    replace (length t + 1 - 1)%nat with (length t) by lia. rewrite firstn_app, Nat.sub_diag, firstn_all. cbn [firstn]. apply app_nil_r.
Qed.
Lemma written_hash : forall t wr, written t wr -> ~ In hash t -> ~ In hash wr.
Proof.
  intros t wr H Hh. destruct H as [_|q Hq]; [exact Hh|]. intros [E|E]; [destruct Hq; subst; discriminate|]. apply in_app_or in E. destruct E as [E|[E|[]]]; [tauto | destruct Hq; subst; discriminate].
Qed.
Lemma blanks_no : forall c b, blanks b -> c <> " "%char -> c <> tab -> ~ In c b.
Proof. intros c b H H1 H2 Hi. apply (proj1 (Forall_forall _ _) H) in Hi. tauto. Qed.
Lemma not_c_all : forall d s, ~ In d s -> List.Forall (fun c => not_c d c = true) s.
Proof. intros d s H. apply Forall_forall. intros c Hc. unfold not_c. replace (ch_eqb c d) with false; [reflexivity|]. symmetry. apply ch_eqb_neq. intros ->. contradiction. Qed.
Lemma existsb_no : forall d s, ~ In d s -> existsb (ch_eqb d) s = false.
Proof. intros d s H. destruct (existsb (ch_eqb d) s) eqn:E; [|reflexivity]. apply existsb_exists in E. destruct E as (c & Hc & Ec). apply ch_eqb_eq in Ec. subst. contradiction. Qed.
Lemma existsb_yes : forall d s, In d s -> existsb (ch_eqb d) s = true.
Proof. intros d s H. apply existsb_exists. exists d. split; [exact H | apply ch_eqb_eq; reflexivity]. Qed.
(** The text of the value is recovered *)
Lemma value_text : forall t wr b3 b4 c, written t wr -> ~ In hash t -> blanks b3 -> blanks b4 -> comment c ->
  (0 < length (trim (b3 ++ wr ++ b4 ++ c)))%nat /\ str_value (trim (b3 ++ wr ++ b4 ++ c)) = t.
Proof.
  intros t wr b3 b4 c Hw Hh H3 H4 Hc. pose proof (written_edges t wr Hw) as He. pose proof (written_hash t wr Hw Hh) as Hwh. destruct Hc as [|r].
  - rewrite app_nil_r, trim_text by assumption. unfold str_value, strip_comment. rewrite existsb_no by exact Hwh. split; [destruct He as [(c & r & -> & _) _]; cbn; lia|]. apply unquote_written, Hw.
  - destruct (trim_comment b3 (wr ++ b4) r H3) as (r' & E). { destruct He as [(c & s & -> & Hc) _]. exists c, (s ++ b4). split; [reflexivity | exact Hc]. }
    rewrite <- app_assoc in E. rewrite E. split; [rewrite ! app_length; cbn; lia|].
    unfold str_value, strip_comment. rewrite existsb_yes by (apply in_or_app; right; left; reflexivity).
    assert (Hn : ~ In hash (wr ++ b4)) by (intros Hi; apply in_app_or in Hi; destruct Hi as [Hi|Hi]; [contradiction|]; revert Hi; apply blanks_no; [exact H4 | discriminate | discriminate]).
    assert (ET : take_while (not_c hash) ((wr ++ b4) ++ hash :: r') = wr ++ b4) by (apply take_while_all; [apply not_c_all, Hn | right; exists hash, r'; split; reflexivity]).
    rewrite ET. rewrite trim_text_r by assumption. apply unquote_written, Hw.
Qed.
(** ** Numbers *)
Lemma dchar_digit : forall d, (d < 10)%nat -> is_digit (dchar d) = true /\ digit_val (dchar d) = Z.of_nat d /\ is_space (dchar d) = false /\ is_blank (dchar d) = false /\
  ch_eqb (dchar d) "-" = false /\ ch_eqb (dchar d) "+" = false /\ ch_eqb (dchar d) "." = false /\ (ch_eqb (dchar d) "e" || ch_eqb (dchar d) "E") = false.
Proof. intros d H. do 10 (destruct d as [|d]; [repeat split; reflexivity|]). lia. Qed.
Lemma number_chars : forall ds, is_number ds -> List.Forall (fun c => is_digit c = true) (map dchar ds).
Proof. intros ds H. induction H as [|d r Hd Hr IH]; cbn [map]; constructor; [apply dchar_digit, Hd | exact IH]. Qed.
Lemma digits_value_intpart : forall ds, is_number ds -> digits_value (map dchar ds) = intpart ds.
Proof.
  intros ds H. unfold digits_value. assert (G : forall a, fold_left (fun a c => 10 * a + digit_val c) (map dchar ds) a = a * 10 ^ Z.of_nat (length ds) + intpart ds).
  { induction H as [|d r Hd Hr IH]; intros a; cbn [map fold_left intpart length]; [rewrite Z.pow_0_r; ring|]. rewrite IH.
    destruct (dchar_digit d Hd) as (_ & -> & _). rewrite Nat2Z.inj_succ, Z.pow_succ_r by lia. ring. }
  rewrite G. ring.
Qed.
Lemma intpart_nonneg : forall ds, 0 <= intpart ds.
Proof. induction ds as [|d r IH]; cbn [intpart]; [lia|]. pose proof (Z.pow_nonneg 10 (Z.of_nat (length r))). nia. Qed.
Lemma sign_text : forall neg sg ds r, signed neg sg -> is_number ds -> ds <> [] -> read_sign (sg ++ map dchar ds ++ r) = (neg, map dchar ds ++ r).
Proof.
  intros neg sg ds r Hs Hd Hne. destruct Hs; [|reflexivity|reflexivity]. destruct ds as [|d ds]; [congruence|]. cbn [app map read_sign]. inversion Hd as [|? ? H1 H2]; subst.
  destruct (dchar_digit d H1) as (_ & _ & _ & _ & -> & -> & _). reflexivity.
Qed.
Lemma nonspace_sign : forall neg sg d r, signed neg sg -> (d < 10)%nat -> drop_while is_space (sg ++ dchar d :: r) = sg ++ dchar d :: r /\ sg ++ dchar d :: r <> [].
Proof.
  intros neg sg d r Hs Hd. destruct Hs; cbn [app drop_while]; [|split; [reflexivity | discriminate]|split; [reflexivity | discriminate]].
  destruct (dchar_digit d Hd) as (_ & _ & -> & _). split; [reflexivity | discriminate].
Qed.
Lemma digits_value_nil : digits_value [] = 0. Proof. reflexivity. Qed.
Lemma take_digits : forall ds r, is_number ds -> (r = [] \/ exists c s, r = c :: s /\ is_digit c = false) -> take_while is_digit (map dchar ds ++ r) = map dchar ds /\ drop_while is_digit (map dchar ds ++ r) = r.
Proof. intros ds r H Hr. apply take_while_all; [apply number_chars, H | exact Hr]. Qed.
Lemma fracpart_value : forall b, is_number b -> (IZR (intpart b) * powerRZ 10 (- Z.of_nat (length b)))%R = fracpart b.
Proof.
  intros b H. induction H as [|d r Hd Hr IH]; cbn [intpart fracpart length]; [cbn; ring|]. rewrite <- IH, plus_IZR, mult_IZR, <- INR_IZR_INZ.
  rewrite Nat2Z.inj_succ. replace (- Z.succ (Z.of_nat (length r))) with (- Z.of_nat (length r) + - 1) by lia. rewrite powerRZ_add by lra.
  replace (IZR (10 ^ Z.of_nat (length r))) with (powerRZ 10 (Z.of_nat (length r))) by (rewrite <- pow_powerRZ, <- pow_IZR; reflexivity).
  assert (E : (powerRZ 10 (Z.of_nat (length r)) * powerRZ 10 (- Z.of_nat (length r)) = 1)%R) by (rewrite <- powerRZ_add by lra; replace (Z.of_nat (length r) + - Z.of_nat (length r)) with 0 by lia; reflexivity).
  replace (powerRZ 10 (-1)) with (/ 10)%R by (cbn [powerRZ Pos.to_nat Pos.iter_op]; change (Pos.to_nat 1) with 1%nat; rewrite pow_1; reflexivity).
  transitivity ((INR d * (powerRZ 10 (Z.of_nat (length r)) * powerRZ 10 (- Z.of_nat (length r))) + IZR (intpart r) * powerRZ 10 (- Z.of_nat (length r))) / 10)%R; [field | rewrite E; field].
Qed.
Lemma intpart_app : forall a b, intpart (a ++ b) = intpart a * 10 ^ Z.of_nat (length b) + intpart b.
Proof.
  induction a as [|d a IH]; intros b; cbn [app intpart]; [ring|]. rewrite IH, app_length, Nat2Z.inj_add, Z.pow_add_r by lia. ring.
Qed.
Lemma decimal_value : forall a b x, is_number b -> (IZR (intpart (a ++ b)) * powerRZ 10 (x - Z.of_nat (length b)))%R = ((IZR (intpart a) + fracpart b) * powerRZ 10 x)%R.
Proof.
  intros a b x Hb. rewrite intpart_app, plus_IZR, mult_IZR, <- fracpart_value by exact Hb. unfold Z.sub. rewrite powerRZ_add by lra.
  replace (IZR (10 ^ Z.of_nat (length b))) with (powerRZ 10 (Z.of_nat (length b))) by (rewrite <- pow_powerRZ, <- pow_IZR; reflexivity).
  assert (E : (powerRZ 10 (Z.of_nat (length b)) * powerRZ 10 (- Z.of_nat (length b)) = 1)%R) by (rewrite <- powerRZ_add by lra; replace (Z.of_nat (length b) + - Z.of_nat (length b)) with 0 by lia; reflexivity).
  transitivity ((IZR (intpart a) * (powerRZ 10 (Z.of_nat (length b)) * powerRZ 10 (- Z.of_nat (length b))) + IZR (intpart b) * powerRZ 10 (- Z.of_nat (length b))) * powerRZ 10 x)%R; [ring | rewrite E; ring].
Qed.
Lemma is_number_app : forall a b, is_number a -> is_number b -> is_number (a ++ b).
Proof. intros. apply Forall_app. tauto. Qed.
Lemma sign_general : forall neg sg c r, signed neg sg -> ch_eqb c "-" = false -> ch_eqb c "+" = false -> read_sign (sg ++ c :: r) = (neg, c :: r).
Proof. intros neg sg c r Hs H1 H2. destruct Hs; [|reflexivity|reflexivity]. cbn [app read_sign]. rewrite H1, H2. reflexivity. Qed.
Lemma read_real_value : forall neg sg a fr b ex x, signed neg sg -> is_number a -> fraction fr b -> a ++ b <> [] -> exponent ex x ->
  read_real (sg ++ map dchar a ++ fr ++ ex) = (apply_signR neg (IZR (intpart a) + fracpart b) * powerRZ 10 x)%R.
Proof.
  intros neg sg a fr b ex x Hs Ha Hf Hab Hx.
  assert (Hb : is_number b) by (destruct Hf; [constructor | assumption]).
  assert (Hex : ex = [] \/ exists c s, ex = c :: s /\ is_digit c = false /\ ch_eqb c "." = false /\ (ch_eqb c "e" || ch_eqb c "E") = true).
  { destruct Hx as [|e n1 s1 xs He H1 H2 H3]; [left; reflexivity | right]. exists e, (s1 ++ map dchar xs). destruct He as [->| ->]; repeat split; reflexivity. }
  assert (Hex' : ex = [] \/ exists c s, ex = c :: s /\ is_digit c = false) by (destruct Hex as [?|(c & s & ? & ? & _)]; [left; assumption | right; exists c, s; tauto]).
  assert (Hfe : fr ++ ex = [] \/ exists c s, fr ++ ex = c :: s /\ is_digit c = false).
  { destruct Hf; [exact Hex' | right; exists "."%char, (map dchar b ++ ex); split; reflexivity]. }
  assert (HS : read_sign (sg ++ map dchar a ++ fr ++ ex) = (neg, map dchar a ++ fr ++ ex)).
  { destruct a as [|d a]. - destruct Hf as [|b Hb']; [cbn in Hab; congruence|]. cbn [map app]. apply sign_general; [exact Hs | reflexivity | reflexivity].
    - apply sign_text; [exact Hs | exact Ha | discriminate]. }
  unfold read_real. rewrite HS. cbv zeta. destruct (take_digits a (fr ++ ex) Ha Hfe) as [-> ->].
  assert (HF : match fr ++ ex with c :: r' => if ch_eqb c "." then (take_while is_digit r', drop_while is_digit r') else ([], fr ++ ex) | [] => ([], fr ++ ex) end = (map dchar b, ex)).
  { destruct Hf as [|b Hb'].
    - cbn [app map]. destruct Hex as [->|(c & s & -> & _ & H2 & _)]; [reflexivity | rewrite H2; reflexivity].
    - cbn [app]. change (ch_eqb "." ".") with true. cbv iota. destruct (take_digits b ex Hb' Hex') as [-> ->]. reflexivity. }
  match goal with |- (let '(_, _) := ?e in _) = _ => replace e with (map dchar b, ex) by (symmetry; exact HF) end. clear HF. cbv iota beta zeta. rewrite <- map_app, digits_value_intpart by (apply is_number_app; assumption). rewrite map_length.
  assert (HV : forall y, (IZR (if neg then - intpart (a ++ b) else intpart (a ++ b)) * pow10 (y - Z.of_nat (length b)))%R = (apply_signR neg (IZR (intpart a) + fracpart b) * powerRZ 10 y)%R).
  { intros y. unfold pow10, apply_signR. destruct neg; [rewrite opp_IZR, Ropp_mult_distr_l_reverse, decimal_value by exact Hb; ring | apply decimal_value, Hb]. }
  destruct (map dchar (a ++ b)) as [|c0 r0] eqn:Em; [destruct (a ++ b); [congruence | discriminate]|]. clear c0 r0 Em.
  destruct Hx as [|e n1 s1 xs He H1 H2 H3].
  - rewrite <- HV. reflexivity.
  - replace (ch_eqb e "e" || ch_eqb e "E") with true by (destruct He as [->| ->]; reflexivity).
    rewrite <- (app_nil_r (map dchar xs)). rewrite (sign_text n1 s1 xs [] H1 H2 H3). destruct (take_digits xs [] H2 (or_introl eq_refl)) as [-> _].
    destruct (map dchar xs) as [|c0 r0] eqn:Em; [destruct xs; [congruence | discriminate]|]. rewrite <- Em, digits_value_intpart by exact H2. rewrite <- HV. reflexivity.
Qed.
(** ** Keywords *)
Lemma lower_idem : forall c, to_lower (to_lower c) = to_lower c.
Proof. intros [[] [] [] [] [] [] [] []]; reflexivity. Qed.
Lemma find_word_same : forall words w e t, In (w, e) words -> NoDup (map fst words) -> List.Forall (fun we => map to_lower (txt (fst we)) = txt (fst we) /\ ~ In " "%char (txt (fst we))) words ->
  Forall2 same_char (txt w) t -> find_word words (underscores t) = Some e.
Proof.
  intros words w e t Hi Hn Hl Hs.
  assert (Hw : map to_lower (txt w) = txt w /\ ~ In " "%char (txt w)) by (apply (proj1 (Forall_forall _ _) Hl (w, e) Hi)).
  assert (HE : map to_lower (underscores t) = txt w).
  { unfold underscores. rewrite map_map. destruct Hw as [H1 H2]. revert H1 H2. induction Hs as [|a b la lb Hab Hs IH]; intros H1 H2; cbn [map] in *; [reflexivity|].
    injection H1 as E1 E2. rewrite IH by (try assumption; intros X; apply H2; right; exact X). f_equal. destruct Hab as [->|[Hab|[-> ->]]].
    - replace (ch_eqb a " ") with false; [exact E1|]. symmetry. apply ch_eqb_neq. intros ->. apply H2. left. reflexivity.
    - destruct (ch_eqb b " ") eqn:Eb; [|exact Hab]. apply ch_eqb_eq in Eb. subst b. exfalso. apply H2. left. rewrite <- Hab. reflexivity.
    - reflexivity. }
  induction words as [|[w1 e1] r IH]; [destruct Hi|]. cbn [find_word]. unfold iequals. rewrite HE. inversion Hl as [|? ? [L1 _] Hl']; subst. cbn [fst] in L1. rewrite L1.
  inversion Hn as [|? ? N1 N2]; subst. destruct Hi as [Hi|Hi].
  - injection Hi as -> ->. replace (str_eqb (txt w) (txt w)) with true by (symmetry; apply str_eqb_eq; reflexivity). reflexivity.
  - destruct (str_eqb (txt w) (txt w1)) eqn:Eq; [|apply IH; assumption]. apply str_eqb_eq in Eq. apply txt_inj in Eq. subst w1.
    exfalso. apply N1. apply (in_map fst) in Hi. exact Hi.
Qed.
Fixpoint nodup_b (l : list string) : bool := match l with [] => true | a :: r => negb (existsb (String.eqb a) r) && nodup_b r end.
Lemma nodup_b_ok : forall l, nodup_b l = true -> NoDup l.
Proof.
  induction l as [|a r IH]; intros H; constructor; cbn in H; apply andb_prop in H; destruct H as [H1 H2].
  - intros Hi. assert (existsb (String.eqb a) r = true) by (apply existsb_exists; exists a; split; [exact Hi | apply String.eqb_refl]). rewrite H in H1. discriminate.
  - apply IH, H2.
Qed.
Lemma words_ok : forall words exits, In (words, exits) [kernel_words; eos_words; viscosity_words] ->
  NoDup (map fst words) /\ List.Forall (fun we => map to_lower (txt (fst we)) = txt (fst we) /\ ~ In " "%char (txt (fst we))) words.
Proof.
  intros words exits H.
  assert (C : forall ws : list (string * Z), forallb (fun we => str_eqb (map to_lower (txt (fst we))) (txt (fst we)) && negb (existsb (ch_eqb " ") (txt (fst we)))) ws = true ->
     List.Forall (fun we => map to_lower (txt (fst we)) = txt (fst we) /\ ~ In " "%char (txt (fst we))) ws).
  { intros ws Hw. apply Forall_forall. intros we Hi. apply (proj1 (forallb_forall _ _) Hw) in Hi. apply andb_prop in Hi. destruct Hi as [H1 H2]. split; [apply str_eqb_eq, H1|].
    intros X. rewrite (existsb_yes _ _ X) in H2. discriminate. }
  destruct H as [E|[E|[E|[]]]]; injection E as <- <-; (split; [apply nodup_b_ok; vm_compute; reflexivity | apply C; vm_compute; reflexivity]).
Qed.
(** ** A text gives its value *)
Lemma convert_denotes : forall k t v old, denotes k t v -> convert k t old = Done v.
Proof.
  intros k t v old H. destruct H as [t Ht|t Ht|bits neg sg ds Hs Hd Hne Hb Hr|ds Hd Hne Hr|neg sg a fr b ex x Hs Ha Hf Hab Hx|t Hn Hl|words exits w e t Hi Hw Hs].
  - destruct Ht as [->| ->]; reflexivity.
  - destruct Ht as [->| ->]; reflexivity.
  - cbn [convert]. unfold stream_read. destruct ds as [|d ds]; [congruence|]. assert (Hd0 : (d < 10)%nat) by (inversion Hd; assumption).
    destruct (nonspace_sign neg sg d (map dchar ds) Hs Hd0) as [E1 E2]. cbn [map]. rewrite E1. destruct (sg ++ dchar d :: map dchar ds) as [|c0 r0] eqn:E; [congruence|]. rewrite <- E.
    do 2 f_equal. unfold read_signed. change (dchar d :: map dchar ds) with (map dchar (d :: ds)). rewrite <- (app_nil_r (map dchar (d :: ds))). rewrite (sign_text neg sg (d :: ds) [] Hs Hd Hne).
    destruct (take_digits (d :: ds) [] Hd (or_introl eq_refl)) as [-> _]. rewrite digits_value_intpart by exact Hd. destruct neg; cbn [apply_sign] in *; lia.
  - cbn [convert]. unfold stream_read. destruct ds as [|d ds]; [congruence|]. assert (Hd0 : (d < 10)%nat) by (inversion Hd; assumption).
    destruct (nonspace_sign false [] d (map dchar ds) Sg_none Hd0) as [E1 _]. cbn [map app] in *. rewrite E1. do 2 f_equal. unfold read_ushort.
    change (dchar d :: map dchar ds) with (map dchar (d :: ds)). rewrite <- (app_nil_r (map dchar (d :: ds))). pose proof (sign_text false [] (d :: ds) [] Sg_none Hd Hne) as ES. cbn [app] in ES. rewrite ES.
    destruct (take_digits (d :: ds) [] Hd (or_introl eq_refl)) as [-> _]. rewrite digits_value_intpart by exact Hd. change (2 ^ 16) with 65536 in Hr.
    destruct (Z.ltb_spec 65535 (intpart (d :: ds))); [lia | reflexivity].
  - cbn [convert]. unfold stream_read. set (s := sg ++ map dchar a ++ fr ++ ex).
    assert (E : drop_while is_space s = s /\ s <> []).
    { unfold s. destruct a as [|d a].
      - destruct Hf as [|b Hb']; [cbn in Hab; congruence|]. cbn [map app]. destruct Hs; (split; [reflexivity | discriminate]).
      - cbn [map app]. apply (nonspace_sign neg); [exact Hs | inversion Ha; assumption]. }
    destruct E as [-> E]. destruct s as [|c0 r0] eqn:Es; [congruence|]. rewrite <- Es. unfold s. rewrite (read_real_value neg sg a fr b ex x) by assumption. reflexivity.
  - cbn [convert]. cbv zeta. assert (E : take_while (not_c nul) t = t).
    { rewrite <- (app_nil_r t) at 1. apply take_while_all; [apply not_c_all, Hn | left; reflexivity]. }
    rewrite E. replace (length t <? 511)%nat with true by (symmetry; apply Nat.ltb_lt; lia). reflexivity.
  - cbn [convert]. destruct (words_ok words exits Hw) as [H1 H2]. rewrite (find_word_same words w e t) by assumption. reflexivity.
Qed.
Lemma table_lookup : forall w k, In (w, k) table -> lookup table (txt w) = Some k.
Proof.
  assert (G : forall t, NoDup (map fst t) -> forall w k, In (w, k) t -> lookup t (txt w) = Some k).
  { induction t as [|[w1 k1] t IH]; [intros _ w k []|]. intros Hn w k [E|Hi]; cbn [lookup]; inversion Hn as [|? ? N1 N2]; subst.
    - injection E as -> ->. replace (str_eqb (txt w) (txt w)) with true by (symmetry; apply str_eqb_eq; reflexivity). reflexivity.
    - destruct (str_eqb (txt w) (txt w1)) eqn:E; [|apply IH; assumption]. apply str_eqb_eq, txt_inj in E. subst w1. exfalso. apply N1. apply (in_map fst) in Hi. exact Hi. }
  apply G. apply nodup_b_ok. vm_compute. reflexivity.
Qed.
Lemma table_names : forall w k, In (w, k) table -> edges (txt w) /\ ~ In "="%char (txt w) /\ exists c r, txt w = c :: r /\ c <> hash /\ is_blank c = false.
Proof.
  intros w k Hi.
  assert (H : forallb (fun wk => let s := txt (fst wk) in negb (existsb (ch_eqb "=") s) && match s with [] => false | c :: _ => negb (ch_eqb c hash) end && forallb (fun c => negb (is_blank c)) s) table = true) by (vm_compute; reflexivity).
  apply (proj1 (forallb_forall _ _) H) in Hi. cbn [fst] in Hi. cbv zeta in Hi. apply andb_prop in Hi. destruct Hi as [Hi H3]. apply andb_prop in Hi. destruct Hi as [H1 H2].
  assert (HN : forall c, In c (txt w) -> is_blank c = false) by (intros c Hc; apply (proj1 (forallb_forall _ _) H3) in Hc; destruct (is_blank c); [discriminate | reflexivity]).
  destruct (txt w) as [|c r] eqn:E; [discriminate|].
  split; [split; [exists c, r; split; [reflexivity | apply HN; left; reflexivity] | destruct (exists_last (l := c :: r) ltac:(discriminate)) as (s & d & Es); exists d, s; rewrite Es; split; [reflexivity|]; apply HN; rewrite Es; apply in_or_app; right; left; reflexivity]|].
  split; [intros X; rewrite (existsb_yes _ _ X) in H1; discriminate|]. exists c, r. split; [reflexivity|]. split; [intros ->; discriminate | apply HN; left; reflexivity].
Qed.
(** ** C55: one line *)
Theorem C55_line : forall w k t v l p, In (w, k) table -> denotes k t v -> line_for (txt w) t l ->
  exists p', read_line l p = Done p' /\ p' (txt w) = v /\ forall name, name <> txt w -> p' name = p name.
Proof.
  intros w k t v l p Hi Hd (b1 & b2 & b3 & b4 & wr & c & H1 & H2 & H3 & H4 & Hw & Hc & Hh & ->).
  destruct (table_names w k Hi) as (He & Heq & (c0 & r0 & Ec & Hc1 & Hc2)).
  exists (upd p (txt w) v). split; [|split].
  - unfold read_line.
    assert (HS : skipped (b1 ++ txt w ++ b2 ++ "="%char :: b3 ++ wr ++ b4 ++ c) = false).
    { induction H1 as [|x r Hx Hr IH]; cbn [app skipped]; [rewrite Ec; cbn [app skipped]; rewrite Hc2; replace (ch_eqb c0 hash) with false by (symmetry; apply ch_eqb_neq; exact Hc1); reflexivity|].
      destruct Hx as [->| ->]; exact IH. }
    rewrite HS. rewrite (existsb_yes "=" _) by (do 2 (apply in_or_app; right); apply in_or_app; right; left; reflexivity). cbn [negb].
    assert (Hn : ~ In "="%char (b1 ++ txt w ++ b2)).
    { intros X. apply in_app_or in X. destruct X as [X|X]; [revert X; apply blanks_no; [exact H1 | discriminate | discriminate]|]. apply in_app_or in X. destruct X as [X|X]; [contradiction|]. revert X. apply blanks_no; [exact H2 | discriminate | discriminate]. }
    replace (b1 ++ txt w ++ b2 ++ "="%char :: b3 ++ wr ++ b4 ++ c) with ((b1 ++ txt w ++ b2) ++ "="%char :: b3 ++ wr ++ b4 ++ c) by (rewrite <- ! app_assoc; reflexivity).
    destruct (take_while_all (not_c "=") (b1 ++ txt w ++ b2) ("="%char :: b3 ++ wr ++ b4 ++ c) (not_c_all _ _ Hn)) as [-> ->]; [right; eexists _, _; split; reflexivity|].
    cbn [tl]. rewrite trim_text by assumption. destruct (value_text t wr b3 b4 c Hw Hh H3 H4 Hc) as [HL HT].
    replace (length (txt w) =? 0)%nat with false by (rewrite Ec; reflexivity). replace (length (trim (b3 ++ wr ++ b4 ++ c)) =? 0)%nat with false by (symmetry; apply Nat.eqb_neq; lia). cbn [orb].
    unfold set_param. rewrite (table_lookup w k Hi), HT, (convert_denotes k t v _ Hd). reflexivity.
  - unfold upd. replace (str_eqb (txt w) (txt w)) with true by (symmetry; apply str_eqb_eq; reflexivity). reflexivity.
  - intros name Hn. unfold upd. destruct (str_eqb name (txt w)) eqn:E; [apply str_eqb_eq in E; contradiction | reflexivity].
Qed.
Theorem C55_nothing : forall l p, says_nothing l -> read_line l p = Done p.
Proof.
  intros l p (b & c & Hb & Hc & ->). unfold read_line. assert (HS : skipped (b ++ c) = true).
  { induction Hb as [|x r Hx Hr IH]; cbn [app skipped]; [destruct Hc; reflexivity|]. destruct Hx as [->| ->]; exact IH. }
  rewrite HS. reflexivity.
Qed.
(** ** Whole files: every parameter gets the value of its last line, the others keep theirs *)
Definition item := option (string * value).
Definition states (it : item) (l : str) : Prop :=
  ~ In nl l /\ match it with None => says_nothing l | Some (w, v) => exists k t, In (w, k) table /\ denotes k t v /\ line_for (txt w) t l end.
Lemma lines_of_app : forall l cur s, ~ In nl l -> lines_of cur (l ++ nl :: s) = (rev cur ++ l) :: lines_of [] s.
Proof.
  induction l as [|c l IH]; intros cur s H; cbn [app lines_of].
  - change (ch_eqb nl nl) with true. cbv iota. rewrite app_nil_r. reflexivity.
  - replace (ch_eqb c nl) with false by (symmetry; apply ch_eqb_neq; intros ->; apply H; left; reflexivity). rewrite IH by (intros X; apply H; right; exact X).
    cbn [rev]. rewrite <- app_assoc. reflexivity.
Qed.
Lemma lines_of_file : forall ls, List.Forall (fun l => ~ In nl l) ls -> lines_of [] (flat_map (fun l => l ++ [nl]) ls) = ls.
Proof.
  intros ls H. induction H as [|l r Hl Hr IH]; cbn [flat_map]; [reflexivity|]. rewrite <- app_assoc. cbn [app]. rewrite lines_of_app by exact Hl. cbn [rev app]. rewrite IH. reflexivity.
Qed.
Theorem C55_file : forall items ls p, Forall2 states items ls ->
  exists p', read_params (flat_map (fun l => l ++ [nl]) ls) p = Done p' /\
    (forall pre w v post, items = pre ++ Some (w, v) :: post -> (forall v', ~ In (Some (w, v')) post) -> p' (txt w) = v) /\
    (forall name, (forall w v, In (Some (w, v)) items -> name <> txt w) -> p' name = p name).
Proof.
  intros items ls p H. unfold read_params. rewrite lines_of_file by (induction H as [|it l its r [Hn _] _ IH]; constructor; assumption).
  revert p. induction H as [|it l its r [_ Hl] Hr IH]; intros p.
  - exists p. split; [reflexivity|]. split; [intros pre w v post E; destruct pre; discriminate | reflexivity].
  - cbn [read_lines]. destruct it as [[w v]|].
    + destruct Hl as (k & t & Hi & Hd & Hf). destruct (C55_line w k t v l p Hi Hd Hf) as (p1 & -> & Hv & Ho). destruct (IH p1) as (p' & E & A & B). exists p'. split; [exact E|]. split.
      * intros pre w' v' post E' Hlast. destruct pre as [|x pre]; cbn [app] in E'; injection E' as E1 E2.
        -- inversion E1; subst w' v' post. rewrite B; [exact Hv|]. intros w2 v2 Hi2 E3. apply txt_inj in E3. subst w2. exact (Hlast _ Hi2).
        -- apply (A pre w' v' post); assumption.
      * intros name Hn. rewrite B by (intros w2 v2 Hi2; apply (Hn w2 v2); right; exact Hi2). apply Ho. apply (Hn w v). left. reflexivity.
    + rewrite (C55_nothing l p Hl). destruct (IH p) as (p' & E & A & B). exists p'. split; [exact E|]. split.
      * intros pre w' v' post E' Hlast. destruct pre as [|x pre]; cbn [app] in E'; injection E' as E1 E2; [discriminate|]. apply (A pre w' v' post); assumption.
      * intros name Hn. apply B. intros w2 v2 Hi2. apply (Hn w2 v2). right. exact Hi2.
Qed.
Definition names (items : list item) : list string := flat_map (fun it => match it with Some (w, _) => [w] | None => [] end) items.
Lemma in_names : forall items w, In w (names items) <-> exists v, In (Some (w, v)) items.
Proof.
  intros items w. unfold names. rewrite in_flat_map. split.
  - intros (it & Hi & Hw). destruct it as [[w' v]|]; [|destruct Hw]. destruct Hw as [->|[]]. exists v. exact Hi.
  - intros (v & Hi). exists (Some (w, v)). split; [exact Hi | left; reflexivity].
Qed.
Lemma names_app : forall a b, names (a ++ b) = names a ++ names b.
Proof. intros. unfold names. apply flat_map_app. Qed.
(** every parameter has at most one line: the order of the lines is without effect *)
Theorem C55_order : forall items ls ls' p, Forall2 states items ls -> NoDup (names items) -> Permutation ls ls' ->
  exists p1 p2, read_params (flat_map (fun l => l ++ [nl]) ls) p = Done p1 /\ read_params (flat_map (fun l => l ++ [nl]) ls') p = Done p2 /\ forall name, p1 name = p2 name.
Proof.
  intros items ls ls' p H Hn HP.
  assert (HF : Forall2 (fun l it => states it l) ls items) by (clear -H; induction H; constructor; assumption).
  destruct (Permutation_Forall2 HP HF) as (items' & HP' & HF').
  assert (H' : Forall2 states items' ls') by (clear -HF'; induction HF'; constructor; assumption).
  destruct (C55_file items ls p H) as (p1 & E1 & A1 & B1). destruct (C55_file items' ls' p H') as (p2 & E2 & A2 & B2). exists p1, p2. split; [exact E1|]. split; [exact E2|].
  assert (Hn' : NoDup (names items')) by (eapply Permutation_NoDup; [|exact Hn]; unfold names; apply Permutation_flat_map, HP').
  assert (HV : forall its, NoDup (names its) -> forall q, (forall pre w v post, its = pre ++ Some (w, v) :: post -> (forall v', ~ In (Some (w, v')) post) -> q (txt w) = v) -> forall w v, In (Some (w, v)) its -> q (txt w) = v).
  { clear. intros its Hn q A w v Hi. apply in_split in Hi. destruct Hi as (pre & post & E). apply (A pre w v post E). intros v' Hi'. subst its. rewrite names_app in Hn. cbn [names flat_map] in Hn.
    assert (Hw : In w (names post)) by (apply in_names; exists v'; exact Hi'). apply NoDup_remove_2 in Hn. apply Hn. apply in_or_app. right. exact Hw. }
  assert (D : forall name, (exists w v, name = txt w /\ In (Some (w, v)) items) \/ (forall w v, In (Some (w, v)) items -> name <> txt w)).
  { intros name. clear. induction items as [|it items IH]; [right; intros w v []|]. destruct IH as [(w & v & E & Hi)|IH]; [left; exists w, v; split; [exact E | right; exact Hi]|].
    destruct it as [[w v]|]; [|right; intros w v [Hi|Hi]; [discriminate | apply (IH w v Hi)]].
    destruct (list_eq_dec ascii_dec name (txt w)) as [E|E]; [left; exists w, v; split; [exact E | left; reflexivity]|].
    right. intros w' v' [Hi|Hi]; [injection Hi as <- <-; exact E | apply (IH w' v' Hi)]. }
  intros name. destruct (D name) as [(w & v & -> & Hi)|Hno].
  - rewrite (HV items Hn p1 A1 w v Hi). symmetry. apply (HV items' Hn' p2 A2 w v). eapply Permutation_in; [exact HP' | exact Hi].
  - rewrite B1 by exact Hno. symmetry. apply B2. intros w v Hi. apply (Hno w v). eapply Permutation_in; [apply Permutation_sym, HP' | exact Hi].
Qed.
(** ** What is not read as it is meant *)
Definition p0 : params := fun _ => VB true.
Definition sets (l : str) (name : string) (v : value) : Prop := exists p, read_line l p0 = Done p /\ p (txt name) = v.
(** a '#' inside a quoted text *)
Theorem C55_hash_in_quotes_refuted : exists l, l = txt "initial_data_prefix = ""run#1""" /\ sets l "initial_data_prefix" (VS (txt "ru")).
Proof. eexists. split; [reflexivity|]. eexists. split; [vm_compute; reflexivity|]. vm_compute. reflexivity. Qed.
(** a line that ends with carriage return and line feed *)
Theorem C55_carriage_return_refuted : exists l, l = txt "adaptive_timestep = yes" ++ [cr] /\ sets l "adaptive_timestep" (VB false).
Proof. eexists. split; [reflexivity|]. eexists. split; [vm_compute; reflexivity|]. vm_compute. reflexivity. Qed.
(** initial_time, of type int64_t, cannot be a fraction; numbers of particles no power of ten *)
Theorem C55_fraction_refuted : exists l l', l = txt "initial_time = 0.5" /\ l' = txt "nparticles = 1e6" /\ sets l "initial_time" (VZ 0) /\ sets l' "nparticles" (VZ 1).
Proof. eexists _, _. split; [reflexivity|]. split; [reflexivity|]. split; eexists; (split; [vm_compute; reflexivity|]; vm_compute; reflexivity). Qed.
(** other spellings of true, or of nothing known, are false without a message *)
Theorem C55_spelling_refuted : exists l l', l = txt "adaptive_timestep = Yes" /\ l' = txt "adaptive_timestep = # yes" /\ sets l "adaptive_timestep" (VB false) /\ sets l' "adaptive_timestep" (VB false).
Proof. eexists _, _. split; [reflexivity|]. split; [reflexivity|]. split; eexists; (split; [vm_compute; reflexivity|]; vm_compute; reflexivity). Qed.
(** a text without its closing quote loses the last character *)
Theorem C55_open_quote_refuted : exists l, l = txt "initial_data_prefix = ""run" /\ sets l "initial_data_prefix" (VS (txt "ru")).
Proof. eexists. split; [reflexivity|]. eexists. split; [vm_compute; reflexivity|]. vm_compute. reflexivity. Qed.
(** two declared parameters cannot be set *)
Theorem C55_unreadable_refuted : exists l l', l = txt "wvt_set_boundary = no" /\ l' = txt "fmm_max_cell_mass = 1.0" /\ forall p, read_line l p = Exit 2 /\ read_line l' p = Exit 2.
Proof. eexists _, _. split; [reflexivity|]. split; [reflexivity|]. intros p. split; vm_compute; reflexivity. Qed.
(** Other files do not get through: no '=' or nothing on one side, an unknown name; a long
    text writes past its array *)
Theorem C55_errors : forall l p, (~ In "="%char l -> ~ says_nothing l -> read_line l p = Exit 1) /\
  (forall name b1 b2 rhs, ~ In "="%char name -> blanks b1 -> blanks b2 -> edges name -> name <> [] -> (forall c r, name = c :: r -> c <> hash) -> l = b1 ++ name ++ b2 ++ "="%char :: rhs ->
     edges rhs -> (forall w k, In (w, k) table -> name <> txt w) -> read_line l p = Exit 2).
Proof.
  intros l p. split.
  - intros He Hs. unfold read_line. destruct (skipped l) eqn:E.
    + exfalso. apply Hs. clear He Hs. unfold says_nothing. induction l as [|c l IH]; [exists [], []; split; [constructor|]; split; [constructor | reflexivity]|].
      cbn [skipped] in E. destruct (ch_eqb c hash) eqn:E1; [apply ch_eqb_eq in E1; subst; exists [], (hash :: l); split; [constructor|]; split; [constructor | reflexivity]|].
      destruct (is_blank c) eqn:E2; [|discriminate]. destruct (IH E) as (b & d & Hb & Hd & ->). exists (c :: b), d. split; [constructor; [|exact Hb]|split; [exact Hd | reflexivity]].
      unfold is_blank in E2. apply Bool.orb_true_iff in E2. destruct E2 as [E2|E2]; apply ch_eqb_eq in E2; tauto.
    + rewrite existsb_no by exact He. reflexivity.
  - intros name b1 b2 rhs Hn H1 H2 He Hne Hh -> Her Hun. unfold read_line. destruct name as [|c0 r0] eqn:En; [congruence|]. rewrite <- En in *.
    assert (Hc2 : is_blank c0 = false) by (destruct He as [(c & r & E & Hc) _]; rewrite En in E; injection E as -> ->; exact Hc).
    assert (HS : skipped (b1 ++ name ++ b2 ++ "="%char :: rhs) = false).
    { induction H1 as [|x r Hx Hr IH]; cbn [app skipped]; [rewrite En; cbn [app skipped]; rewrite Hc2; replace (ch_eqb c0 hash) with false by (symmetry; apply ch_eqb_neq; apply (Hh c0 r0 En)); reflexivity|].
      destruct Hx as [->| ->]; exact IH. }
    rewrite HS. rewrite (existsb_yes "=" _) by (do 2 (apply in_or_app; right); apply in_or_app; right; left; reflexivity). cbn [negb].
    assert (Hn' : ~ In "="%char (b1 ++ name ++ b2)).
    { intros X. apply in_app_or in X. destruct X as [X|X]; [revert X; apply blanks_no; [exact H1 | discriminate | discriminate]|]. apply in_app_or in X. destruct X as [X|X]; [contradiction|]. revert X. apply blanks_no; [exact H2 | discriminate | discriminate]. }
    replace (b1 ++ name ++ b2 ++ "="%char :: rhs) with ((b1 ++ name ++ b2) ++ "="%char :: rhs) by (rewrite <- ! app_assoc; reflexivity).
    destruct (take_while_all (not_c "=") (b1 ++ name ++ b2) ("="%char :: rhs) (not_c_all _ _ Hn')) as [-> ->]; [right; eexists _, _; split; reflexivity|].
    cbn [tl]. rewrite trim_text by assumption. pose proof (trim_text_l [] rhs ltac:(constructor) Her) as ER. cbn [app] in ER. rewrite ER.
    replace (length name =? 0)%nat with false by (rewrite En; reflexivity). replace (length rhs =? 0)%nat with false by (destruct Her as [(c & r & -> & _) _]; reflexivity). cbn [orb].
    unfold set_param. assert (EL : forall t, (forall w k, In (w, k) t -> name <> txt w) -> lookup t name = None).
    { clear. induction t as [|[w k] t IH]; intros H; cbn [lookup]; [reflexivity|]. destruct (str_eqb name (txt w)) eqn:E; [apply str_eqb_eq in E; exfalso; apply (H w k); [left; reflexivity | exact E]|]. apply IH. intros w' k' Hi. apply (H w' k'). right. exact Hi. }
    rewrite (EL table Hun). reflexivity.
Qed.
Theorem C55_long_text_refuted : exists l p, (length l <= 600)%nat /\ read_line l p = Overrun.
Proof. exists (txt "initial_data_prefix = " ++ repeat "x"%char 511), p0. split; [vm_compute; lia | vm_compute; reflexivity]. Qed.
(** ** Concrete lines *)
Example C55_real_line : line_for (txt "poly_gamma") (txt "-1.4e2") (txt "  poly_gamma=  -1.4e2   # index = 5") /\ denotes KReal (txt "-1.4e2") (VD (-140)%R).
Proof.
  split.
  - exists (txt "  "), [], (txt "  "), (txt "   "), (txt "-1.4e2"), (txt "# index = 5"). unfold blanks, txt; cbn [list_ascii_of_string].
    repeat split; try (repeat constructor; fail).
    + apply W_plain. split; [exists "-"%char, (txt "1.4e2"); repeat split; discriminate | exists "2"%char, (txt "-1.4e"); repeat split; discriminate].
    + intros H. cbn in H. repeat (destruct H as [H|H]; [discriminate|]). exact H.
  - replace (-140)%R with (apply_signR true (IZR (intpart [1%nat]) + fracpart [4%nat]) * powerRZ 10 (apply_sign false (intpart [2%nat])))%R.
    + apply (D_real true (txt "-") [1%nat] (txt ".4") [4%nat] (txt "e2") (apply_sign false (intpart [2%nat]))); try constructor; try (constructor; lia); try discriminate.
      * apply (Fr_some [4%nat]). constructor; [lia | constructor].
      * apply (Ex_some "e" false [] [2%nat]); [left; reflexivity | constructor | constructor; [lia | constructor] | discriminate].
    + change (intpart [1%nat]) with 1. change (apply_sign false (intpart [2%nat])) with 2. unfold apply_signR, fracpart, powerRZ. change (Pos.to_nat 2) with 2%nat. cbn [INR pow]. field.
Qed.
Example C55_run : exists p, read_params (txt "# Sod" ++ [nl] ++ txt "nparticles= 10000   # number" ++ [nl] ++ txt "sph_kernel = 'Wendland C6'" ++ [nl; nl] ++ txt "sodtest_num  = 1" ++ [nl]) p0 = Done p /\
  p (txt "nparticles") = VZ 10000 /\ p (txt "sph_kernel") = VK 4 /\ p (txt "sodtest_num") = VZ 1 /\ p (txt "poly_gamma") = VB true.
Proof. eexists. split; [vm_compute; reflexivity|]. vm_compute. repeat split. Qed.
