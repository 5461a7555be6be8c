(** C55, second part: the declarations agree with the reader. *)
From Coq Require Import String Ascii Reals Permutation.
From Verif Require Import Base Snapshot_model Params_model Params_props ParamsDecl_model.
Local Open Scope Z_scope.

(** The value belongs to the type. *)
Definition typed (k : kind) (v : value) : Prop :=
  match k, v with
  | KBool, VB _ => True
  | KInt bits, VZ z => - 2 ^ (bits - 1) <= z < 2 ^ (bits - 1)
  | KUShort, VZ z => 0 <= z < 65536
  | KReal, VD _ => True
  | KString, VS s => (length s < 511)%nat /\ ~ In nul s
  | KKeyword (words, _), VK e => In e (map snd words)
  | _, _ => False
  end.

(** Every parameter is declared once and starts with a value of the type its
    reader expects; nothing else is declared. *)
Theorem C55_declared : NoDup (map fst declared) /\
  Forall (fun d => exists k, In (fst d, k) (table ++ declared_only) /\ typed k (snd d)) declared /\
  (forall w, In w (map fst (table ++ declared_only)) <-> In w (map fst declared)).
Proof.
  assert (D : forall l l' : list string, forallb (fun w => existsb (String.eqb w) l') l = true -> incl l l').
  { intros l l' H w Hw. rewrite forallb_forall in H. specialize (H w Hw). apply existsb_exists in H. destruct H as (x & Hx & E).
    apply String.eqb_eq in E. subst. exact Hx. }
  assert (M : forall l w k, (fix look (l : list (string * kind)) := match l with [] => None | (x, k) :: r => if String.eqb w x then Some k else look r end) l = Some k -> In (w, k) l).
  { induction l as [|[x k'] l IH]; intros w k H; [discriminate|]. destruct (String.eqb_spec w x) as [->|_]; [injection H as ->; left; reflexivity|right; apply IH, H]. }
  split; [|split].
  - unfold declared. cbn [map fst].
    match goal with |- NoDup ?l0 => assert (H : (fix nd (l : list string) := match l with [] => true | w :: r => negb (existsb (String.eqb w) r) && nd r end) l0 = true)
      by (vm_compute; reflexivity); revert H; generalize l0 end.
    induction l as [|w r IH]; intro H; constructor.
    + apply andb_prop in H. destruct H as (H & _). intro J. apply negb_true_iff in H. rewrite <- not_true_iff_false in H. apply H.
      apply existsb_exists. exists w. split; [exact J|apply String.eqb_refl].
    + apply IH. apply andb_prop in H. tauto.
  - unfold declared. repeat (apply Forall_cons; [eexists; split; [apply M; cbn [fst]; vm_compute; reflexivity|]|]); [..|apply Forall_nil]; cbn [snd typed].
    all: try exact I.
    all: try (split; [vm_compute; reflexivity|discriminate]).
    all: try (cbn; tauto).
    all: try (split; vm_compute; (reflexivity || discriminate)).
    all: try (split; [vm_compute; lia|]; vm_compute; intuition discriminate).
  - intro w. unfold declared. cbn [map fst]. split; apply D; vm_compute; reflexivity.
Qed.

(** The text of an enumerator, in any case and with blanks for underscores, is
    read as its position in the enumeration. *)
Theorem C55_keywords : forall s old,
  (forall i w, nth_error kernel_enum i = Some w -> iequals (underscores s) (txt w) = true -> convert (KKeyword kernel_words) s old = Done (VK (Z.of_nat i))) /\
  (forall i w t, nth_error eos_enum i = Some w ->
     In (w, t) [("eos_ideal", "ideal_fluid"); ("eos_polytropic", "polytropic"); ("eos_wd", "wd"); ("eos_wd", "white_dwarf"); ("eos_ppt", "ppt");
       ("eos_ppt", "piecewise_polytropic"); ("eos_no_eos", "no_eos"); ("eos_no_eos", "none")]%string ->
     iequals (underscores s) (txt t) = true -> convert (KKeyword eos_words) s old = Done (VK (Z.of_nat i))) /\
  (forall i w t, nth_error viscosity_enum i = Some w -> In (w, t) [("visc_constant", "constant"); ("visc_cullen", "cullen")]%string ->
     iequals (underscores s) (txt t) = true -> convert (KKeyword viscosity_words) s old = Done (VK (Z.of_nat i))).
Proof.
  intros s old.
  assert (F : forall words a b, iequals a b = true -> find_word words a = find_word words b).
  { intros words a b H. induction words as [|[w k] r IH]; [reflexivity|]. cbn [find_word]. unfold iequals in *.
    unfold str_eqb in H. destruct (list_eq_dec ascii_dec (map to_lower a) (map to_lower b)) as [E|]; [|discriminate]. rewrite E, IH. reflexivity. }
  split; [|split].
  - intros i w Hi H. cbn [convert kernel_words]. rewrite (F _ _ _ H). clear H.
    do 8 (destruct i as [|i]; [injection Hi as <-; reflexivity|]). destruct i; discriminate.
  - intros i w t Hi Hw H. cbn [convert eos_words]. rewrite (F _ _ _ H). clear H.
    do 5 (destruct i as [|i]; [injection Hi as <-; cbn in Hw; decompose [or] Hw; clear Hw;
      match goal with E : (_, _) = (_, _) |- _ => injection E; clear E; intros; subst; try discriminate; reflexivity | H : False |- _ => destruct H end|]).
    destruct i; discriminate.
  - intros i w t Hi Hw H. cbn [convert viscosity_words]. rewrite (F _ _ _ H). clear H.
    do 2 (destruct i as [|i]; [injection Hi as <-; cbn in Hw; decompose [or] Hw; clear Hw;
      match goal with E : (_, _) = (_, _) |- _ => injection E; clear E; intros; subst; try discriminate; reflexivity | H : False |- _ => destruct H end|]).
    destruct i; discriminate.
Qed.

(** A parameter that the file does not set keeps its declared value. *)
Theorem C55_unset : forall items ls, Forall2 states items ls ->
  exists p, read_params (flat_map (fun l => l ++ [nl]) ls) initial = Done p /\
    forall w v, In (w, v) declared -> (forall v', ~ In (Some (w, v')) items) -> p (txt w) = v.
Proof.
  intros items ls H. destruct (C55_file items ls initial H) as (p & E & _ & B). exists p. split; [exact E|].
  intros w v Hw Hn. rewrite B.
  - unfold initial. pose proof (proj1 C55_declared) as ND. revert ND Hw. generalize declared.
    induction l as [|[x u] l IH]; intros ND Hw; [destruct Hw|]. cbn [value_of map fst] in *. inversion ND; subst.
    unfold str_eqb. destruct (list_eq_dec ascii_dec (txt w) (txt x)) as [Eq|Ne].
    + assert (w = x) as -> by (apply (f_equal string_of_list_ascii) in Eq; unfold txt in Eq; rewrite !string_of_list_ascii_of_string in Eq; exact Eq).
      destruct Hw as [Hw|Hw]; [congruence|]. exfalso. apply H2. apply in_map_iff. exists (x, v). auto.
    + destruct Hw as [Hw|Hw]; [|apply IH; assumption]. injection Hw as -> ->. exfalso. apply Ne. reflexivity.
  - intros w' v' Hi Eq. apply (f_equal string_of_list_ascii) in Eq. unfold txt in Eq. rewrite !string_of_list_ascii_of_string in Eq. subst. exact (Hn v' Hi).
Qed.

Example C55_defaults_case : initial (txt "sph_kernel") = VK 3 /\ initial (txt "relaxation_steps") = VZ 0 /\ initial (txt "external_force_type") = VS (txt "none") /\
  convert (KKeyword kernel_words) (txt "Wendland C4") (VK 0) = Done (VK 3).
Proof. repeat split. Qed.

Print Assumptions C55_declared.
Print Assumptions C55_keywords.
Print Assumptions C55_unset.
