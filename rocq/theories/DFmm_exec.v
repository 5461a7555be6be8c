(** What any list of calls of the kind the FMM traversal makes computes. *)
From Verif Require Import Base Key_model HCell_model BuildTree_model BuildTree_spec Vec Geometry_model Cofm_model Gravity_model Gravity_props Fmm_model Fmm_spec Fmm_proofs.
Local Open Scope R_scope.

(** the one entry of a list of weighted things whose weights add up to 1 *)
Definition the_one {A} (d : A) (l : list (nat * A)) : A := match find (fun x => negb (Nat.eqb (fst x) 0)) l with Some x => snd x | None => d end.
Lemma none_w {A} (l : list (nat * A)) : list_sum (map fst l) = 0%nat -> forall g, suml (fun x => INR (fst x) * g (snd x)) l = 0.
Proof.
  intros H g. induction l as [|x l IH]; [reflexivity|]. cbn [map list_sum] in H. change (list_sum (fst x :: map fst l)) with (fst x + list_sum (map fst l))%nat in H. cbn [suml]. rewrite IH by lia. replace (fst x) with 0%nat by lia. cbn [INR]. ring.
Qed.
Lemma one_w {A} (d : A) (l : list (nat * A)) : list_sum (map fst l) = 1%nat -> In (1%nat, the_one d l) l /\ forall g, suml (fun x => INR (fst x) * g (snd x)) l = g (the_one d l).
Proof.
  unfold the_one. induction l as [|[w x] l IH]; intros H; [discriminate|]. change (list_sum (map fst ((w, x) :: l))) with (w + list_sum (map fst l))%nat in H. cbn [find fst]. destruct w as [|w].
  - cbn [Nat.eqb negb]. destruct IH as [I1 I2]; [lia|]. split; [right; exact I1|]. intros g. cbn [suml fst snd INR]. rewrite I2. ring.
  - cbn [Nat.eqb negb snd]. assert (w = 0%nat) by lia. subst w. split; [left; reflexivity|]. intros g. cbn [suml fst snd INR]. rewrite (none_w l ltac:(lia) g). ring.
Qed.
Lemma suml_if {A} (f : A -> R) (p : A -> bool) l : suml (fun x => if p x then f x else 0) l = suml f (filter p l).
Proof. symmetry. apply suml_filter. Qed.
Lemma suml_one (f : nat -> R) e : forall m a, (a <= e < a + m)%nat -> suml (fun j => INR (if Nat.eqb e j then 1 else 0)%nat * f j) (seq a m) = f e.
Proof.
  induction m as [|m IH]; intros a H; [lia|]. cbn [seq suml]. destruct (Nat.eqb_spec e a) as [->|Hn].
  - rewrite (suml_ext _ (fun _ => 0)); [rewrite suml_zero; cbn [INR]; ring|]. intros j Hj. apply in_seq in Hj. destruct (Nat.eqb_spec a j) as [->|]; [lia | cbn [INR]; ring].
  - rewrite IH by lia. cbn [INR]. ring.
Qed.
Lemma ls_app a b : list_sum (a ++ b) = (list_sum a + list_sum b)%nat.
Proof. induction a as [|x a IH]; [reflexivity|]. cbn [app]. change (list_sum (x :: a ++ b)) with (x + list_sum (a ++ b))%nat. change (list_sum (x :: a)) with (x + list_sum a)%nat. lia. Qed.
Lemma total_app {A} (f : A -> nat) a b : total f (a ++ b) = (total f a + total f b)%nat.
Proof. unfold total. rewrite map_app. apply ls_app. Qed.

Section Exec.
Variables (dim : N) (gc : R) (na : N -> option cofm) (bodies : list body) (ks : list N).
Notation n := (N.to_nat dim).
Notation gb := (get_body bodies).
Notation run := (exec_all n gc na bodies).
Notation len := (length ks).

Definition npos (k : N) : point := match na k with Some m => cm_pos m | None => vzero end.
Definition nmass (k : N) : R := match na k with Some m => cm_mass m | None => 0 end.
(** the two positions and the mass with which a call works *)
Definition cp1 (c : call) : point := match c with C_c2c k _ | C_p2c k _ => npos k | C_p2p e _ _ => b_pos (gb e) | C_c2p _ _ => vzero end.
Definition cp2 (c : call) : point :=
  match c with C_c2c _ q => npos q | C_p2c _ e => b_pos (gb e) | C_p2p _ (Some q) _ => npos q | C_p2p _ None (e :: _) => b_pos (gb e) | _ => vzero end.
Definition cms (c : call) : R :=
  match c with C_c2c _ q => nmass q | C_p2c _ e => b_mass (gb e) | C_p2p _ (Some q) _ => nmass q | C_p2p _ None (e :: _) => b_mass (gb e) | _ => 0 end.
Definition UA (c : call) (k : nat) : R := p2p_acc n gc (cp1 c) (cp2 c) 1 k.
Definition UP (c : call) : R := p2p_pot n gc (cp1 c) (cp2 c) 1.
(** calls of the passes, calls of the final loops *)
Definition okc (c : call) : Prop :=
  match c with C_c2c k q => na k <> None /\ na q <> None | C_p2c k e => na k <> None /\ (e < len)%nat | C_p2p e (Some q) [] => na q <> None | _ => False end.
Definition okr (c : call) : Prop := match c with C_c2p k _ => na k <> None | C_p2p e None [e2] => (e2 < len)%nat | _ => False end.
Definition sinkn (q : N) (c : call) : bool := match c with C_c2c k _ | C_p2c k _ => (k =? q)%N | _ => false end.
Definition sinkp (i : nat) (c : call) : bool :=
  match c with C_p2p e (Some _) _ => Nat.eqb e i | C_p2p e None (e2 :: _) => Nat.eqb e i && negb (Nat.eqb e2 e) | _ => false end.

Lemma acc_unit x y M k : p2p_acc n gc x y M k = M * p2p_acc n gc x y 1 k.
Proof. unfold p2p_acc, Rdiv. ring. Qed.
Lemma pot_unit x y M : p2p_pot n gc x y M = M * p2p_pot n gc x y 1.
Proof. unfold p2p_pot, Rdiv. ring. Qed.
Lemma fc_acc_unit f x y M k : fc_acc n gc f x y M k = f k + M * p2p_acc n gc x y 1 k.
Proof. unfold fc_acc, p2p_acc, Rdiv. ring. Qed.
Lemma fc_pot_unit p x y M : fc_pot n gc p x y M = p + M * p2p_pot n gc x y 1.
Proof. unfold fc_pot, p2p_pot, Rdiv. ring. Qed.
Lemma node_ok s k : na k <> None -> to_node na s k = Some (GNode (npos k) (nmass k) (s_pc s k) (s_fc s k)).
Proof. unfold to_node, npos, nmass. destruct (na k); [reflexivity | congruence]. Qed.

Lemma exec_passes : forall cs s, Forall okc cs -> exists s', run s cs = Some s' /\
  (forall q, s_pc s' q = s_pc s q + suml (fun c => if sinkn q c then cms c * UP c else 0) cs) /\
  (forall q k, s_fc s' q k = s_fc s q k + suml (fun c => if sinkn q c then cms c * UA c k else 0) cs) /\
  (forall i, s_pot s' i = s_pot s i + suml (fun c => if sinkp i c then cms c * UP c else 0) cs) /\
  (forall i k, s_acc s' i k = s_acc s i k + suml (fun c => if sinkp i c then cms c * UA c k else 0) cs).
Proof.
  induction cs as [|c cs IH]; intros s H.
  - exists s. cbn [exec_all suml]. repeat split; intros; ring.
  - inversion H as [|? ? Hc Hcs]; subst. cbn [exec_all].
    assert (S1 : exists s1, exec n gc na bodies s c = Some s1 /\
      (forall q, s_pc s1 q = s_pc s q + (if sinkn q c then cms c * UP c else 0)) /\
      (forall q k, s_fc s1 q k = s_fc s q k + (if sinkn q c then cms c * UA c k else 0)) /\
      (forall i, s_pot s1 i = s_pot s i + (if sinkp i c then cms c * UP c else 0)) /\
      (forall i k, s_acc s1 i k = s_acc s i k + (if sinkp i c then cms c * UA c k else 0))).
    { unfold UA, UP. destruct c as [k q|k e|e [q|] [|e2 l]|k subs]; try (destruct Hc; fail); cbn [okc] in Hc; cbn [exec sinkn sinkp cms cp1 cp2].
      - destruct Hc as [H1 H2]. rewrite (node_ok s k H1), (node_ok s q H2). eexists. split; [reflexivity|]. unfold put_node, taylor_c2c. cbn [s_pc s_fc s_pot s_acc gn_pc gn_fc gn_pos gn_mass].
        split; [|split; [|split; intros; ring]].
        + intros p. rewrite (N.eqb_sym k p). destruct (N.eqb_spec p k) as [->|_]; [rewrite fc_pot_unit; reflexivity|ring].
        + intros p k0. rewrite (N.eqb_sym k p). destruct (N.eqb_spec p k) as [->|_]; [rewrite fc_acc_unit; reflexivity|ring].
      - destruct Hc as [Hc _]. rewrite (node_ok s k Hc). eexists. split; [reflexivity|]. unfold put_node, taylor_p2c, to_body. cbn [s_pc s_fc s_pot s_acc gn_pc gn_fc gn_pos gn_mass g_pos g_mass].
        split; [|split; [|split; intros; ring]].
        + intros p. rewrite (N.eqb_sym k p). destruct (N.eqb_spec p k) as [->|_]; [rewrite fc_pot_unit; reflexivity|ring].
        + intros p k0. rewrite (N.eqb_sym k p). destruct (N.eqb_spec p k) as [->|_]; [rewrite fc_acc_unit; reflexivity|ring].
      - rewrite (node_ok s q Hc). eexists. split; [reflexivity|]. unfold put_body, p2p_one, to_body. cbn [s_pc s_fc s_pot s_acc fold_left map g_id g_pot g_acc fst snd g_pos gn_pos gn_mass].
        split; [intros; ring|]. split; [intros; ring|].
        split; intros i; [|intros k]; rewrite (Nat.eqb_sym e i); destruct (Nat.eqb_spec i e) as [->|_]; rewrite ?fc_acc_unit, ?fc_pot_unit; try ring; reflexivity. }
    destruct S1 as (s1 & E1 & A1 & B1 & C1 & D1). rewrite E1. destruct (IH s1 Hcs) as (s' & E & A & B' & C & D').
    exists s'. split; [exact E|]. cbn [suml].
    split; [intros; rewrite A, A1; ring|]. split; [intros; rewrite B', B1; ring|]. split; [intros; rewrite C, C1; ring|].
    intros; rewrite D', D1; ring.
Qed.

Lemma exec_down a : forall l s, let s' := fold_left (fun s i => put_body s (interaction_c2p n (to_body bodies s i) a)) l s in
  s_pc s' = s_pc s /\ s_fc s' = s_fc s /\
  (forall i, s_pot s' i = s_pot s i + INR (count_occ Nat.eq_dec l i) * (gn_pc a + sumn n (fun m => - (b_pos (gb i) m - gn_pos a m) * gn_fc a m))) /\
  (forall i k, s_acc s' i k = s_acc s i k + INR (count_occ Nat.eq_dec l i) * gn_fc a k).
Proof.
  induction l as [|j l IH]; intros s; cbv zeta.
  - cbn [fold_left count_occ INR]. repeat split; intros; ring.
  - cbn [fold_left]. destruct (IH (put_body s (interaction_c2p n (to_body bodies s j) a))) as (A & B' & C & D').
    rewrite A, B'. split; [reflexivity|]. split; [reflexivity|].
    split; intros i; [rewrite C|intros k; rewrite D']; cbn [count_occ]; unfold put_body, interaction_c2p, to_body;
      cbn [s_pot s_acc g_id g_pot g_acc g_pos]; destruct (Nat.eqb_spec i j) as [->|Hne];
      (destruct (Nat.eq_dec j j) as [_|Hn]; [|congruence]) || (destruct (Nat.eq_dec j i) as [E|_]; [congruence|]); rewrite ?S_INR; ring.
Qed.
Definition downP (pc : N -> R) (fc : N -> point) (i : nat) (c : call) : R :=
  match c with C_c2p k subs => INR (count_occ Nat.eq_dec subs i) * (pc k + sumn n (fun m => - (b_pos (gb i) m - npos k m) * fc k m)) | _ => 0 end.
Definition downA (fc : N -> point) (i k : nat) (c : call) : R :=
  match c with C_c2p q subs => INR (count_occ Nat.eq_dec subs i) * fc q k | _ => 0 end.
Lemma exec_rest : forall cs s, Forall okr cs -> exists s', run s cs = Some s' /\ s_pc s' = s_pc s /\ s_fc s' = s_fc s /\
  (forall i, s_pot s' i = s_pot s i + suml (fun c => (if sinkp i c then cms c * UP c else 0) + downP (s_pc s) (s_fc s) i c) cs) /\
  (forall i k, s_acc s' i k = s_acc s i k + suml (fun c => (if sinkp i c then cms c * UA c k else 0) + downA (s_fc s) i k c) cs).
Proof.
  induction cs as [|c cs IH]; intros s H.
  - exists s. cbn [exec_all suml]. repeat split; intros; ring.
  - inversion H as [|? ? Hc Hcs]; subst. cbn [exec_all].
    assert (S1 : exists s1, exec n gc na bodies s c = Some s1 /\ s_pc s1 = s_pc s /\ s_fc s1 = s_fc s /\
      (forall i, s_pot s1 i = s_pot s i + ((if sinkp i c then cms c * UP c else 0) + downP (s_pc s) (s_fc s) i c)) /\
      (forall i k, s_acc s1 i k = s_acc s i k + ((if sinkp i c then cms c * UA c k else 0) + downA (s_fc s) i k c))).
    { unfold UA, UP. destruct c as [k q|k e|e [q|] [|e2 [|e3 l]]|k subs]; try (destruct Hc; fail); cbn [okr] in Hc; cbn [exec sinkp cms cp1 cp2 downP downA].
      - eexists. split; [reflexivity|]. unfold put_body, p2p_one, to_body. cbn [s_pc s_fc s_pot s_acc fold_left map g_id g_pot g_acc fst snd g_pos g_mass].
        split; [reflexivity|]. split; [reflexivity|].
        split; intros i; [|intros k]; rewrite (Nat.eqb_sym e i); destruct (Nat.eqb_spec i e) as [->|_], (Nat.eqb_spec e2 e) as [->|_]; cbn [andb negb fst snd]; unfold vadd; rewrite ?(acc_unit _ _ (b_mass _)), ?(pot_unit _ _ (b_mass _)); try ring.
      - rewrite (node_ok s k Hc). destruct (exec_down (GNode (npos k) (nmass k) (s_pc s k) (s_fc s k)) subs s) as (A & B' & C & D'). eexists. split; [reflexivity|]. split; [exact A|]. split; [exact B'|]. cbn [gn_pc gn_fc gn_pos] in C, D'. split; [intros i; rewrite C; ring | intros i m; rewrite D'; ring]. }
    destruct S1 as (s1 & E1 & A1 & B1 & C1 & D1). rewrite E1. destruct (IH s1 Hcs) as (s' & E & A & B' & C & D'). exists s'. split; [exact E|]. rewrite A, B', A1, B1. split; [reflexivity|]. split; [reflexivity|]. cbn [suml].
    split; [intros i; rewrite C, C1, A1, B1; ring | intros i k; rewrite D', D1, B1; ring].
Qed.

(** the sum a particle gets, for any function of the calls *)
Definition TT (cs rest : list call) (i : nat) (g : call -> R) : R :=
  suml (fun c => if sinkp i c then cms c * g c else 0) (cs ++ rest) +
  suml (fun d => match d with C_c2p p subs => INR (count_occ Nat.eq_dec subs i) * suml (fun c => if sinkn p c then cms c * g c else 0) cs | _ => 0 end) rest.
Lemma sinkn_pos q c : sinkn q c = true -> cp1 c = npos q.
Proof. destruct c; cbn [sinkn cp1]; intros H; try discriminate; apply N.eqb_eq in H; congruence. Qed.
Lemma sinkp_pos i c : sinkp i c = true -> cp1 c = b_pos (gb i).
Proof. destruct c as [k q|k e|e [q|] [|e2 l]|k subs]; cbn [sinkp cp1]; intros H; try discriminate; try (apply andb_true_iff in H; destruct H as [H _]); apply Nat.eqb_eq in H; congruence. Qed.
Definition GP (i : nat) (c : call) : R := UP c + sumn n (fun m => - (b_pos (gb i) m - cp1 c m) * UA c m).
Lemma exec_sum cs rest : Forall okc cs -> Forall okr rest -> exists s, run gstate0 (cs ++ rest) = Some s /\
  (forall i k, s_acc s i k = TT cs rest i (fun c => UA c k)) /\ (forall i, s_pot s i = TT cs rest i (GP i)).
Proof.
  intros Hc Hr. destruct (exec_passes cs gstate0 Hc) as (s1 & E1 & A1 & B1 & C1 & D1). destruct (exec_rest rest s1 Hr) as (s2 & E2 & _ & _ & C2 & D2).
  exists s2. split.
  { clear - E1 E2. assert (G : forall a s, run s (a ++ rest) = (s' <- run s a ;; run s' rest)) by (induction a as [|c a IH]; intros s; [reflexivity|]; cbn [app exec_all]; destruct (exec n gc na bodies s c); [apply IH | reflexivity]). rewrite G, E1. exact E2. }
  split.
  - intros i k. rewrite D2, D1. cbn [gstate0 s_acc]. unfold TT, vzero. rewrite suml_app, suml_plus. rewrite (suml_ext (downA (s_fc s1) i k) (fun d => match d with C_c2p p subs => INR (count_occ Nat.eq_dec subs i) * suml (fun c => if sinkn p c then cms c * UA c k else 0) cs | _ => 0 end)); [ring|].
    intros c _. destruct c; cbn [downA]; try reflexivity. rewrite B1. cbn [gstate0 s_fc]. unfold vzero. rewrite Rplus_0_l. reflexivity.
  - intros i. rewrite C2, C1. cbn [gstate0 s_pot]. unfold TT. rewrite suml_app, suml_plus.
    assert (P1 : forall l, suml (fun c => if sinkp i c then cms c * GP i c else 0) l = suml (fun c => if sinkp i c then cms c * UP c else 0) l).
    { intros l. apply suml_ext. intros c _. destruct (sinkp i c) eqn:E; [|reflexivity]. unfold GP. rewrite (sumn_ext n _ (fun _ => 0)), sumn_zero; [ring|]. intros m _. rewrite (sinkp_pos i c E). ring. }
    rewrite !P1, (suml_ext (downP (s_pc s1) (s_fc s1) i) (fun d => match d with C_c2p p subs => INR (count_occ Nat.eq_dec subs i) * suml (fun c => if sinkn p c then cms c * GP i c else 0) cs | _ => 0 end)); [ring|].
    intros c _. destruct c as [| | |p subs]; cbn [downP]; try reflexivity. f_equal. rewrite A1. cbn [gstate0 s_pc].
    rewrite (sumn_ext n _ (fun m => suml (fun c => if sinkn p c then cms c * (- (b_pos (gb i) m - cp1 c m) * UA c m) else 0) cs)).
    + rewrite <- suml_sumn, Rplus_0_l, <- suml_plus. apply suml_ext. intros c _. unfold GP. destruct (sinkn p c); [|rewrite sumn_zero; ring]. rewrite sumn_scal. ring.
    + intros m _. rewrite B1. cbn [gstate0 s_fc]. unfold vzero. rewrite Rplus_0_l, <- suml_scal. apply suml_ext. intros c _. destruct (sinkn p c) eqn:E; [|ring]. rewrite (sinkn_pos p c E). ring.
Qed.

(** the mass of a node is that of its particles *)
Hypothesis Hnm : forall q m, na q = Some m -> cm_mass m = suml (fun j => INR (inside dim ks q j) * b_mass (gb j)) (seq 0 len).
Definition ways (cs rest : list call) (i j : nat) : list (nat * call) :=
  map (fun c => (direct dim ks i j c, c)) (cs ++ rest) ++
  flat_map (fun d => match d with C_c2p p subs => map (fun c => ((count_occ Nat.eq_dec subs i * on_cell dim ks p j c)%nat, c)) cs | _ => [] end) rest.
Definition way (cs rest : list call) (i j : nat) : call := the_one (C_c2p 0 []) (ways cs rest i j).

Lemma on_rest p j rest : Forall okr rest -> total (on_cell dim ks p j) rest = 0%nat.
Proof. intros H. unfold total. induction H as [|c rest Hc H IH]; [reflexivity|]. cbn [map]. match goal with |- list_sum (?a :: ?b) = _ => change (a + list_sum b = 0)%nat end. rewrite IH. destruct c as [k q|k e|e [q|] l|k subs]; cbn [okr] in Hc; first [reflexivity | destruct Hc]. Qed.
Lemma on_first cs rest p j : Forall okr rest -> total (on_cell dim ks p j) (cs ++ rest) = total (on_cell dim ks p j) cs.
Proof. intros H. rewrite total_app, (on_rest p j rest H). lia. Qed.
Lemma ways_routes cs rest i j : Forall okc cs -> Forall okr rest -> list_sum (map fst (ways cs rest i j)) = routes dim ks (cs ++ rest) i j.
Proof.
  intros Hc Hr. unfold ways, routes. rewrite map_app, map_map, ls_app. f_equal.
  rewrite total_app. assert (Z : total (passed_on dim ks (cs ++ rest) i j) cs = 0%nat).
  { unfold total. set (all := cs ++ rest). clearbody all. induction Hc as [|c cs Hc1 Hc IH]; [reflexivity|]. cbn [map]. match goal with |- list_sum (?a :: ?b) = _ => change (a + list_sum b = 0)%nat end. rewrite IH. destruct c as [k q|k e|e [q|] l|k subs]; cbn [okc] in Hc1; first [reflexivity | destruct Hc1]. }
  rewrite Z. cbn [Nat.add]. pose proof (fun p => on_first cs rest p j Hr) as HO. set (all := cs ++ rest) in *. clearbody all. clear - HO. unfold total at 1. induction rest as [|d rest IH]; [reflexivity|]. cbn [map flat_map]. match goal with |- _ = list_sum (?a :: ?b) => change (list_sum (a :: b)) with (a + list_sum b)%nat end. rewrite map_app, ls_app, IH. f_equal.
  destruct d as [k q|k e|e [q|] l|p subs]; try reflexivity. cbn [passed_on]. rewrite HO, map_map. cbn [fst]. unfold total. clear. induction cs as [|c cs IH]; [cbn; lia|]. cbn [map]. match goal with |- list_sum (?a :: ?b) = (_ * list_sum (?x :: ?y))%nat => change (list_sum (a :: b)) with (a + list_sum b)%nat; change (list_sum (x :: y)) with (x + list_sum y)%nat end. rewrite IH. lia.
Qed.
Lemma ways_sum cs rest i j g : suml (fun x => INR (fst x) * g (snd x)) (ways cs rest i j) =
  suml (fun c => INR (direct dim ks i j c) * g c) (cs ++ rest) + suml (fun d => match d with C_c2p p subs => INR (count_occ Nat.eq_dec subs i) * suml (fun c => INR (on_cell dim ks p j c) * g c) cs | _ => 0 end) rest.
Proof.
  unfold ways. rewrite suml_app, suml_map. f_equal. rewrite suml_flat_map. apply suml_ext. intros d _. destruct d as [k q|k e|e q l|p subs]; try reflexivity. rewrite suml_map, <- suml_scal. apply suml_ext. intros c _. cbn [fst snd]. rewrite mult_INR. ring.
Qed.
(** the sources of a call *)
Lemma src_mass c : okc c \/ okr c -> (forall k l, c <> C_c2p k l) -> exists w : nat -> nat, cms c = suml (fun j => INR (w j) * b_mass (gb j)) (seq 0 len) /\
  (forall q j, on_cell dim ks q j c = if sinkn q c then w j else 0%nat) /\
  (forall i j, i <> j -> direct dim ks i j c = if sinkp i c then w j else 0%nat) /\ (forall i, sinkp i c = true -> (w i <> 0)%nat -> direct dim ks i i c <> 0%nat /\ okc c).
Proof.
  intros Hok Hn. destruct c as [k q|k e|e [q|] [|e2 [|e3 l]]|k subs]; try (exfalso; destruct Hok as [H|H]; destruct H; fail).
  - exists (fun j => inside dim ks q j). destruct Hok as [[_ H]|[]]. cbn [cms]. unfold nmass. destruct (na q) as [m|] eqn:E; [|congruence]. split; [apply Hnm, E|]. split; [reflexivity|]. split; [reflexivity | discriminate].
  - exists (fun j => if Nat.eqb e j then 1%nat else 0%nat). destruct Hok as [[_ H]|[]]. cbn [cms]. split; [symmetry; apply (suml_one (fun j => b_mass (gb j)) e); lia|]. split; [|split; [reflexivity | discriminate]]. intros q j. cbn [on_cell sinkn]. destruct (k =? q)%N, (Nat.eqb e j); reflexivity.
  - exists (fun j => inside dim ks q j). destruct Hok as [H|[]]. cbn [okc] in H. cbn [cms]. unfold nmass. destruct (na q) as [m|] eqn:E; [|congruence]. split; [apply Hnm, E|]. split; [reflexivity|]. split; [intros i j _; cbn [direct sinkp count_occ]; destruct (Nat.eqb e i); lia|]. intros i. cbn [sinkp direct count_occ]. intros H1 H2. rewrite H1. split; [lia | cbn [okc]; congruence].
  - exists (fun j => if Nat.eqb e2 j then 1%nat else 0%nat). destruct Hok as [[]|H]. cbn [okr] in H. cbn [cms]. split; [symmetry; apply (suml_one (fun j => b_mass (gb j)) e2); lia|]. split; [reflexivity|]. split.
    + intros i j Hij. cbn [direct sinkp count_occ]. destruct (Nat.eqb_spec e i) as [->|]; [|reflexivity]. cbn [andb]. destruct (Nat.eqb_spec e2 i) as [->|]; cbn [negb].
      * destruct (Nat.eq_dec i j); [contradiction | reflexivity].
      * destruct (Nat.eqb_spec e2 j) as [->|]; [destruct (Nat.eq_dec j j); [reflexivity | congruence] | destruct (Nat.eq_dec e2 j); [congruence | reflexivity]].
    + intros i H1 H2. exfalso. cbn [sinkp] in H1. apply andb_true_iff in H1. destruct H1 as [H1 H3]. apply Nat.eqb_eq in H1. subst e. destruct (Nat.eqb e2 i); [discriminate | congruence].
  - exfalso. apply (Hn k subs). reflexivity.
Qed.
Lemma TT_swap cs rest i g : Forall okc cs -> Forall okr rest -> (i < len)%nat -> (forall c, In c cs -> direct dim ks i i c = 0%nat) ->
  (forall p subs c, In (C_c2p p subs) rest -> In c cs -> (count_occ Nat.eq_dec subs i * on_cell dim ks p i c = 0)%nat) ->
  TT cs rest i g = suml (fun j => b_mass (gb j) * suml (fun x => INR (fst x) * g (snd x)) (ways cs rest i j)) (filter (fun j => negb (Nat.eqb j i)) (seq 0 len)).
Proof.
  intros Hc Hr Hi Hd Hp. rewrite (suml_ext (fun j => b_mass (gb j) * suml (fun x => INR (fst x) * g (snd x)) (ways cs rest i j))
    (fun j => suml (fun c => b_mass (gb j) * (INR (direct dim ks i j c) * g c)) (cs ++ rest) + suml (fun d => match d with C_c2p p subs => b_mass (gb j) * (INR (count_occ Nat.eq_dec subs i) * suml (fun c => INR (on_cell dim ks p j c) * g c) cs) | _ => 0 end) rest)).
  2:{ intros j _. rewrite ways_sum, Rmult_plus_distr_l, <- !suml_scal. f_equal. apply suml_ext. intros d _. destruct d; ring. }
  rewrite suml_plus. unfold TT. rewrite Forall_forall in Hc, Hr.
  (* a sum over all sources is one over the others and i *)
  assert (SP : forall h : nat -> R, h i = 0 -> suml h (filter (fun j => negb (Nat.eqb j i)) (seq 0 len)) = suml h (seq 0 len)).
  { intros h H0. rewrite <- suml_if. apply suml_ext. intros j _. destruct (Nat.eqb_spec j i) as [->|]; [symmetry; exact H0 | reflexivity]. }
  f_equal; rewrite suml_swap; apply suml_ext; intros c Hin.
  - assert (Hok : okc c \/ okr c) by (apply in_app_or in Hin; destruct Hin; auto). destruct c as [k q|k e|e q l|k subs]; try (cbn [sinkp direct]; rewrite (suml_ext _ (fun _ => 0)) by (intros; cbn [INR]; ring); rewrite suml_zero; reflexivity).
    set (c := C_p2p e q l) in *. destruct (src_mass c Hok) as (w & W1 & _ & W3 & W4); [unfold c; discriminate|].
    rewrite (suml_ext _ (fun j => (if sinkp i c then INR (w j) * b_mass (gb j) else 0) * g c)).
    2:{ intros j Hj. apply filter_In in Hj. destruct Hj as [_ Hj]. apply negb_true_iff, Nat.eqb_neq in Hj. rewrite (W3 i j) by congruence. destruct (sinkp i c); cbn [INR]; ring. }
    destruct (sinkp i c) eqn:Es; [|rewrite (suml_ext _ (fun _ => 0)) by (intros; ring); rewrite suml_zero; reflexivity].
    rewrite (suml_ext _ (fun j => g c * (INR (w j) * b_mass (gb j)))) by (intros; ring). rewrite suml_scal, SP, <- W1; [ring|].
    destruct (Nat.eq_dec (w i) 0) as [->|Hw]; [cbn [INR]; ring|]. exfalso. destruct (W4 i Es Hw) as [W5 W6]. apply W5. apply in_app_or in Hin. destruct Hin as [Hin|Hin]; [apply Hd, Hin|]. specialize (Hr _ Hin). clear - W6 Hr. unfold c in *. destruct q as [q|], l as [|a [|b l]]; cbn [okc okr] in *; tauto.
  - destruct c as [k q|k e|e q l|p subs]; try (symmetry; apply suml_zero).
    rewrite (suml_ext _ (fun j => INR (count_occ Nat.eq_dec subs i) * suml (fun c => b_mass (gb j) * (INR (on_cell dim ks p j c) * g c)) cs)) by (intros j _; rewrite (suml_scal (b_mass (gb j))); ring).
    rewrite suml_scal, suml_swap, <- !suml_scal. apply suml_ext. intros c Hcs.
    assert (Hnc : forall k l, c <> C_c2p k l) by (intros k l ->; destruct (Hc _ Hcs)). destruct (src_mass c (or_introl (Hc c Hcs)) Hnc) as (w & W1 & W2 & _).
    rewrite (suml_ext _ (fun j => (if sinkn p c then INR (w j) * b_mass (gb j) else 0) * g c)) by (intros j _; rewrite W2; destruct (sinkn p c); cbn [INR]; ring).
    destruct (sinkn p c) eqn:Es; [|rewrite (suml_ext _ (fun _ => 0)) by (intros; ring); rewrite suml_zero; ring].
    rewrite (suml_ext _ (fun j => g c * (INR (w j) * b_mass (gb j)))) by (intros; ring). rewrite suml_scal. specialize (Hp p subs c Hin Hcs). rewrite W2, Es in Hp.
    destruct (Nat.eq_dec (count_occ Nat.eq_dec subs i) 0) as [->|H0]; [cbn [INR]; ring|]. rewrite SP, <- W1; [ring|]. replace (w i) with 0%nat by nia. cbn [INR]. ring.
Qed.
(** one way from every other particle: the sum over the others *)
Lemma TT_one cs rest i g : Forall okc cs -> Forall okr rest -> (i < len)%nat -> (forall c, In c cs -> direct dim ks i i c = 0%nat) ->
  (forall p subs c, In (C_c2p p subs) rest -> In c cs -> (count_occ Nat.eq_dec subs i * on_cell dim ks p i c = 0)%nat) ->
  (forall j, (j < len)%nat -> routes dim ks (cs ++ rest) i j = 1%nat) ->
  TT cs rest i g = suml (fun j => b_mass (gb j) * g (way cs rest i j)) (filter (fun j => negb (Nat.eqb j i)) (seq 0 len)).
Proof.
  intros Hc Hr Hi Hd Hp Hj. rewrite (TT_swap cs rest i g) by assumption. apply suml_ext. intros j Hin. apply filter_In in Hin. destruct Hin as [Hin _]. apply in_seq in Hin. f_equal. apply one_w. rewrite ways_routes by assumption. apply Hj. lia.
Qed.
(** no way from any particle: nothing *)
Lemma TT_none cs rest i g : Forall okc cs -> Forall okr rest -> (i < len)%nat -> (forall j, (j < len)%nat -> routes dim ks (cs ++ rest) i j = 0%nat) -> TT cs rest i g = 0.
Proof.
  intros Hc Hr Hi Hj. pose proof (Hj i Hi) as H0. unfold routes in H0. assert (Z : forall f l, total (A := call) f l = 0%nat -> forall c, In c l -> f c = 0%nat).
  { intros f l. unfold total. induction l as [|c l IH]; intros H x Hx; [destruct Hx|]. cbn [map] in H. change (list_sum (f c :: map f l)) with (f c + list_sum (map f l))%nat in H. destruct Hx as [<-|Hx]; [lia | apply IH; [lia | exact Hx]]. }
  rewrite (TT_swap cs rest i g) by (first [assumption | intros c Hin; apply (Z _ (cs ++ rest)); [lia | apply in_or_app; tauto] | intros p subs c Hin Hcs; assert (X : passed_on dim ks (cs ++ rest) i i (C_c2p p subs) = 0%nat) by (apply (Z _ (cs ++ rest)); [lia | apply in_or_app; tauto]); cbn [passed_on] in X; rewrite (on_first cs rest p i Hr) in X; apply Nat.eq_mul_0 in X; destruct X as [->|X]; [reflexivity|]; rewrite (Z _ cs X c Hcs); lia]).
  rewrite (suml_ext _ (fun _ => 0)); [apply suml_zero|]. intros j Hin. apply filter_In in Hin. destruct Hin as [Hin _]. apply in_seq in Hin. rewrite none_w; [ring|]. rewrite ways_routes by assumption. apply Hj. lia.
Qed.
(** where the way of a pair is *)
Lemma way_in cs rest i j : Forall okc cs -> Forall okr rest -> routes dim ks (cs ++ rest) i j = 1%nat ->
  let c := way cs rest i j in In c (cs ++ rest) /\ (direct dim ks i j c = 1%nat \/ exists p subs, In (C_c2p p subs) rest /\ In c cs /\ count_occ Nat.eq_dec subs i = 1%nat /\ on_cell dim ks p j c = 1%nat).
Proof.
  intros Hc Hr H c. rewrite <- ways_routes in H by assumption. destruct (one_w (C_c2p 0 []) _ H) as [Hin _]. change (the_one _ _) with c in Hin. unfold ways in Hin. apply in_app_or in Hin. destruct Hin as [Hin|Hin].
  - apply in_map_iff in Hin. destruct Hin as (x & E & Hx). injection E as E1 E2. subst x. split; [exact Hx | left; exact E1].
  - apply in_flat_map in Hin. destruct Hin as (d & Hd & Hin). destruct d as [k q|k e|e q l|p subs]; try (destruct Hin; fail). apply in_map_iff in Hin. destruct Hin as (x & E & Hx). injection E as E1 E2. subst x. split; [apply in_or_app; left; exact Hx|]. right. exists p, subs. split; [exact Hd|]. split; [exact Hx|]. apply Nat.eq_mul_1 in E1. exact E1.
Qed.
End Exec.
