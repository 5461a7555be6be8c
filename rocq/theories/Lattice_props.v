From Coq Require Import Reals Lra Lia.
From Verif Require Import Base BuildTree_model Range_model Range_props Lattice_model.

Lemma nth_error_ext (T : Type) : forall l l' : list T, (forall n, nth_error l n = nth_error l' n) -> l = l'.
Proof.
  induction l as [|a l IH]; intros [|b l'] H; [reflexivity | specialize (H O); discriminate | specialize (H O); discriminate |].
  pose proof (H O) as H0. cbn in H0. injection H0 as ->. f_equal. apply IH. intros n. apply (H (S n)).
Qed.

(** ** C48: the lattices count what they generate *)
Section Count.
Context {F : Type} (A : arith F).
Definition point_at (s : lst F) (j : Z) : F * F * F := (l_x s j, l_y s j, l_z s j).
(** Either the loops do not end within the fuel, in both modes and for all start
    indices, or there is one list of points such that counting advances the index by its
    length and touches no array, and generating writes it at the start index, the rest
    of the arrays being as before. *)
Definition counts_what_it_writes (g : bool -> lst F -> option (lst F)) : Prop :=
  (forall c s, g c s = None) \/
  exists pts : list (F * F * F), forall s,
    g true s = Some (Lst (l_pid s + Z.of_nat (length pts)) (l_x s) (l_y s) (l_z s)) /\
    exists s', g false s = Some s' /\ l_pid s' = (l_pid s + Z.of_nat (length pts))%Z /\
      (forall n p, nth_error pts n = Some p -> point_at s' (l_pid s + Z.of_nat n) = p) /\
      (forall j, (j < l_pid s \/ l_pid s + Z.of_nat (length pts) <= j)%Z -> point_at s' j = point_at s j).

Definition put (c : bool) (p : F * F * F) (s : lst F) : lst F :=
  if c then Lst (l_pid s + 1) (l_x s) (l_y s) (l_z s)
  else Lst (l_pid s + 1) (upd_z (l_x s) (l_pid s) (fst (fst p))) (upd_z (l_y s) (l_pid s) (snd (fst p))) (upd_z (l_z s) (l_pid s) (snd p)).
Fixpoint emit (c : bool) (pts : list (F * F * F)) (s : lst F) : lst F :=
  match pts with [] => s | p :: r => emit c r (put c p s) end.
Definition Emits (g : bool -> lst F -> option (lst F)) (pts : list (F * F * F)) : Prop := forall c s, g c s = Some (emit c pts s).
Lemma emit_app : forall c a b s, emit c (a ++ b) s = emit c b (emit c a s).
Proof. induction a as [|p a IH]; intros b s; cbn; [reflexivity | apply IH]. Qed.
Lemma emit_true : forall pts s, emit true pts s = Lst (l_pid s + Z.of_nat (length pts)) (l_x s) (l_y s) (l_z s).
Proof. induction pts as [|p r IH]; intros s; cbn [emit length]. - destruct s; cbn. f_equal; lia. - rewrite IH. cbn. f_equal; lia. Qed.
Lemma emit_pid : forall c pts s, l_pid (emit c pts s) = (l_pid s + Z.of_nat (length pts))%Z.
Proof. induction pts as [|p r IH]; intros s; cbn [emit length]; [lia|]. rewrite IH. unfold put. destruct c; cbn; lia. Qed.
Lemma upd_eq (a : Z -> F) : forall i v, upd_z a i v i = v.
Proof. intros. unfold upd_z. rewrite Z.eqb_refl. reflexivity. Qed.
Lemma upd_ne (a : Z -> F) : forall i v j, j <> i -> upd_z a i v j = a j.
Proof. intros i v j H. unfold upd_z. destruct (Z.eqb_spec j i); [congruence | reflexivity]. Qed.
Lemma emit_keep : forall pts s j, (j < l_pid s \/ l_pid s + Z.of_nat (length pts) <= j)%Z -> point_at (emit false pts s) j = point_at s j.
Proof.
  induction pts as [|p r IH]; intros s j H; cbn [emit length] in *; [reflexivity|]. rewrite IH.
  - unfold point_at, put; cbn. rewrite ! upd_ne by lia. reflexivity.
  - unfold put; cbn [l_pid]. lia.
Qed.
Lemma emit_nth : forall pts s n p, nth_error pts n = Some p -> point_at (emit false pts s) (l_pid s + Z.of_nat n) = p.
Proof.
  induction pts as [|q r IH]; intros s n p H; destruct n as [|n]; cbn [nth_error] in H; try discriminate; cbn [emit].
  - injection H as ->. rewrite emit_keep by (unfold put; cbn [l_pid]; lia). rewrite Z.add_0_r.
    unfold point_at, put; cbn. rewrite ! upd_eq. destruct p as [[? ?] ?]; reflexivity.
  - replace (l_pid s + Z.of_nat (S n))%Z with (l_pid (put false q s) + Z.of_nat n)%Z by (unfold put; cbn [l_pid]; lia). apply IH; assumption.
Qed.
Lemma emit_inj : forall p q, (forall c (s : lst F), emit c p s = emit c q s) -> p = q.
Proof.
  intros p q H. assert (HL : length p = length q).
  { destruct p as [|p0 p], q as [|q0 q]; [reflexivity | | |].
    - pose proof (f_equal l_pid (H true (Lst 0 (fun _ => fst (fst q0)) (fun _ => fst (fst q0)) (fun _ => fst (fst q0))))) as E. rewrite ! emit_pid in E. cbn [length] in *; lia.
    - pose proof (f_equal l_pid (H true (Lst 0 (fun _ => fst (fst p0)) (fun _ => fst (fst p0)) (fun _ => fst (fst p0))))) as E. rewrite ! emit_pid in E. cbn [length] in *; lia.
    - pose proof (f_equal l_pid (H true (Lst 0 (fun _ => fst (fst q0)) (fun _ => fst (fst q0)) (fun _ => fst (fst q0))))) as E. rewrite ! emit_pid in E. cbn [length] in *; lia. }
  destruct p as [|p0 p]; [destruct q; [reflexivity | discriminate]|].
  set (s0 := Lst 0 (fun _ => fst (fst p0)) (fun _ => fst (fst p0)) (fun _ => fst (fst p0)) : lst F).
  apply nth_error_ext. intros n. destruct (nth_error (p0 :: p) n) as [a|] eqn:Ea.
  - destruct (nth_error q n) as [b|] eqn:Eb.
    + pose proof (emit_nth _ s0 _ _ Ea) as Ha. pose proof (emit_nth _ s0 _ _ Eb) as Hb. rewrite H, Hb in Ha. congruence.
    + apply nth_error_None in Eb. assert (nth_error (p0 :: p) n <> None) as Hn by congruence. apply nth_error_Some in Hn. lia.
  - apply nth_error_None in Ea. symmetry. apply nth_error_None. lia.
Qed.
Lemma emits_unique : forall g p q, Emits g p -> Emits g q -> p = q.
Proof. intros g p q Hp Hq. apply emit_inj. intros c s. pose proof (Hp c s) as A1. rewrite Hq in A1. congruence. Qed.
Lemma emits_counts : forall g pts, Emits g pts -> counts_what_it_writes g.
Proof.
  intros g pts E. right. exists pts. intros s. split; [rewrite E, emit_true; reflexivity|].
  exists (emit false pts s). split; [apply E|]. split; [apply emit_pid|]. split; [intros; apply emit_nth; assumption | apply emit_keep].
Qed.
Definition fine (g : bool -> lst F -> option (lst F)) : Prop := (forall c s, g c s = None) \/ exists pts, Emits g pts.
Lemma fine_counts : forall g, fine g -> counts_what_it_writes g.
Proof. intros g [N|[pts E]]; [left; exact N | eapply emits_counts; exact E]. Qed.

(** The trace of a loop *)
Fixpoint xs_at (n : nat) (x d : F) : F := match n with O => x | S k => xs_at k (a_add A x d) d end.
Fixpoint os_at (n : nat) (o : F) (nx : F -> F) : F := match n with O => o | S k => os_at k (nx o) nx end.
Lemma place_emits : forall i x y z, Emits (place i x y z) (if i then [(x, y, z)] else []).
Proof. intros i x y z c s. unfold place. destruct i; [|reflexivity]. destruct c; reflexivity. Qed.
Lemma floop_trace : forall b d nx body, (forall x o, fine (body x o)) -> forall fuel x o,
  (forall c s, floop A fuel x o b d nx body c s = None) \/
  exists L, Emits (floop A fuel x o b d nx body) (concat L) /\
    (forall n l, nth_error L n = Some l -> Emits (body (xs_at n x d) (os_at n o nx)) l /\ a_lt A (xs_at n x d) b = true) /\
    a_lt A (xs_at (length L) x d) b = false.
Proof.
  intros b d nx body Hb. induction fuel as [|k IH]; intros x o; [left; reflexivity|]. cbn [floop].
  destruct (a_lt A x b) eqn:El.
  2:{ right. exists []. split; [intros c s; reflexivity|]. split; [intros [|n] l H; discriminate | exact El]. }
  destruct (Hb x o) as [N|[p E]]; [left; intros c s; rewrite N; reflexivity|].
  destruct (IH (a_add A x d) (nx o)) as [N|(L & EL & HL & HE)].
  - left. intros c s. rewrite E. apply N.
  - right. exists (p :: L). split.
    + intros c s. rewrite E. cbn [concat]. rewrite emit_app. apply EL.
    + split; [|exact HE]. intros [|n] l H; cbn [nth_error] in H; [injection H as <-; split; [exact E | exact El] | apply HL; exact H].
Qed.
Lemma floop_fine : forall b d nx body fuel x o, (forall x o, fine (body x o)) -> fine (floop A fuel x o b d nx body).
Proof. intros b d nx body fuel x o H. destruct (floop_trace b d nx body H fuel x o) as [N|(L & E & _)]; [left; exact N | right; exists (concat L); exact E]. Qed.
Lemma place_fine : forall i x y z, fine (place i x y z).
Proof. intros. right. eexists. apply place_emits. Qed.
Lemma gen_1d_fine : forall fuel bmin bmax sep, fine (gen_1d A fuel bmin bmax sep).
Proof. intros. apply floop_fine. intros. apply place_fine. Qed.
Lemma gen_2d_fine : forall fuel lt dt bmin bmax sep, fine (gen_2d A fuel lt dt bmin bmax sep).
Proof. intros. unfold gen_2d. destruct (lt =? 0)%Z; apply floop_fine; intros; apply floop_fine; intros; apply place_fine. Qed.
Lemma gen_3d_fine : forall fuel lt dt bmin bmax sep, fine (gen_3d A fuel lt dt bmin bmax sep).
Proof.
  intros. unfold gen_3d. destruct (lt =? 0)%Z; [|destruct (lt =? 1)%Z; [|destruct (lt =? 2)%Z]];
    try (apply floop_fine; intros; apply floop_fine; intros; apply floop_fine; intros; apply place_fine).
  right. exists []. intros c s. reflexivity.
Qed.
Lemma place_all_fine : forall pos bmin bmax dt nn l, exists pts, Emits (place_all A pos bmin bmax dt nn l) pts.
Proof.
  intros pos bmin bmax dt nn. induction l as [|i r (pts & IH)]; [exists []; intros c s; reflexivity|].
  cbn [place_all]. destruct (pos nn i) as [[x y] z].
  eexists. intros c s. rewrite (place_emits _ x y z c s). cbv iota beta. rewrite (IH c), <- emit_app. reflexivity.
Qed.
Lemma gen_ico_fine : forall pos bmin bmax dt nns, fine (gen_ico A pos bmin bmax dt nns).
Proof.
  intros pos bmin bmax dt nns. right. induction nns as [|nn r (pts & IH)]; [exists []; intros c s; reflexivity|].
  destruct (place_all_fine pos bmin bmax dt nn (ico_shell nn)) as (p0 & E0).
  exists (p0 ++ pts). intros c s. cbn [gen_ico]. rewrite E0. cbv iota beta. rewrite IH, emit_app. reflexivity.
Qed.
End Count.

(** C48: for every arithmetic -- so for doubles with their rounding -- domain, spacing,
    lattice type and domain type. *)
Theorem C48_lattices : forall (F : Type) (A : arith F) fuel lattice_type domain_type bmin bmax sep,
  counts_what_it_writes (gen_1d A fuel bmin bmax sep) /\
  counts_what_it_writes (gen_2d A fuel lattice_type domain_type bmin bmax sep) /\
  counts_what_it_writes (gen_3d A fuel lattice_type domain_type bmin bmax sep).
Proof. intros. split; [|split]; apply fine_counts; [apply gen_1d_fine | apply gen_2d_fine | apply gen_3d_fine]. Qed.
Theorem C48_icosahedral : forall (F : Type) (A : arith F) pos bmin bmax domain_type nns,
  counts_what_it_writes (gen_ico A pos bmin bmax domain_type nns).
Proof. intros. apply fine_counts, gen_ico_fine. Qed.
(** The random lattice is generated with other draws than it is counted with, but both
    come to the same number. *)
Theorem C48_random : forall (F : Type) fuel npart (d1 d2 : nat -> bool * F * F * F) t1 t2 (s s1 s2 : lst F),
  gen_random fuel npart d1 t1 true s = Some s1 -> gen_random fuel npart d2 t2 false s = Some s2 ->
  l_pid s1 = (l_pid s + Z.of_nat npart)%Z /\ l_pid s2 = l_pid s1 /\ l_x s1 = l_x s /\ l_y s1 = l_y s /\ l_z s1 = l_z s /\
  (forall j, (j < l_pid s \/ l_pid s2 <= j)%Z -> point_at s2 j = point_at s j) /\
  (forall j, (l_pid s <= j < l_pid s2)%Z -> exists t x y z, d2 t = (true, x, y, z) /\ point_at s2 j = (x, y, z)).
Proof.
  intros F fuel npart d1 d2.
  assert (HR : forall fuel d t c (s : lst F) t' s', rejection fuel d t c s = Some (t', s') -> exists u x y z, d u = (true, x, y, z) /\ s' = put c (x, y, z) s).
  { clear. induction fuel as [|k IH]; intros d t c s t' s' H; cbn [rejection] in H; [discriminate|].
    destruct (d t) as [[[ok x] y] z] eqn:Ed. destruct ok.
    - exists t, x, y, z. split; [exact Ed|]. unfold place in H. cbv iota beta in H. injection H as _ <-. unfold put. destruct c; reflexivity.
    - eapply IH; exact H. }
  assert (HG : forall c n d t (s s' : lst F), gen_random fuel n d t c s = Some s' ->
    exists pts, length pts = n /\ s' = emit c pts s /\ Forall (fun p => exists u, d u = (true, fst (fst p), snd (fst p), snd p)) pts).
  { clear -HR. intros c. induction n as [|n IH]; intros d t s s' H; cbn [gen_random] in H.
    - injection H as <-. exists []. repeat split; constructor.
    - destruct (rejection fuel d t c s) as [[t' s1]|] eqn:Er; [|discriminate].
      destruct (HR _ _ _ _ _ _ _ Er) as (u & x & y & z & Eu & ->). destruct (IH _ _ _ _ H) as (pts & Hl & -> & HF).
      exists ((x, y, z) :: pts). split; [cbn; lia|]. split; [reflexivity|]. constructor; [exists u; exact Eu | exact HF]. }
  intros t1 t2 s s1 s2 H1 H2.
  destruct (HG _ _ _ _ _ _ H1) as (p1 & L1 & -> & _). destruct (HG _ _ _ _ _ _ H2) as (p2 & L2 & -> & F2).
  rewrite ! emit_pid, L1, L2. split; [reflexivity|]. split; [reflexivity|]. rewrite emit_true. cbn [l_x l_y l_z].
  split; [reflexivity|]. split; [reflexivity|]. split; [reflexivity|]. split.
  - intros j Hj. apply emit_keep. rewrite L2. exact Hj.
  - intros j Hj. destruct (nth_error p2 (Z.to_nat (j - l_pid s))) as [p|] eqn:En.
    + pose proof (emit_nth p2 s _ _ En) as Hp. rewrite Z2Nat.id in Hp by lia. replace (l_pid s + (j - l_pid s))%Z with j in Hp by lia.
      rewrite Forall_forall in F2. destruct (F2 p (nth_error_In _ _ En)) as (u & Eu). destruct p as [[x y] z].
      exists u, x, y, z. split; [exact Eu | exact Hp].
    + apply nth_error_None in En. lia.
Qed.

(** Integers for the arithmetic: a rectangular row with two points, written at 5 and 6 *)
Definition ZA : arith Z := Arith Z Z.add Z.sub Z.mul Z.div Z.ltb (fun z => z) Z.sqrt.
Example C48_run :
  match gen_3d ZA 9 0 0 (fun _ => -1)%Z (fun d => if (d =? 0)%nat then 5 else 2)%Z 2%Z false (Lst 5 (fun _ => 7%Z) (fun _ => 7%Z) (fun _ => 7%Z)) with
  | Some s' => l_pid s' = 7%Z /\ map (point_at s') [4; 5; 6; 7]%Z = [(7, 7, 7); (1, 1, 1); (3, 1, 1); (7, 7, 7)]%Z
  | None => False end /\
  match gen_3d ZA 9 0 0 (fun _ => -1)%Z (fun d => if (d =? 0)%nat then 5 else 2)%Z 2%Z true (Lst 5 (fun _ => 7%Z) (fun _ => 7%Z) (fun _ => 7%Z)) with
  | Some s' => l_pid s' = 7%Z /\ map (point_at s') [4; 5; 6; 7]%Z = [(7, 7, 7); (7, 7, 7); (7, 7, 7); (7, 7, 7)]%Z
  | None => False end.
Proof. split; vm_compute; split; reflexivity. Qed.
Example C48_no_end : gen_1d ZA 100 (fun _ => 0%Z) (fun _ => 4%Z) 0%Z false (Lst 0 (fun _ => 7%Z) (fun _ => 7%Z) (fun _ => 7%Z)) = None.
Proof. vm_compute. reflexivity. Qed.
Example C48_random_run :
  match gen_random 4 2 (fun t => (Nat.odd t, Z.of_nat t, 0%Z, 0%Z)) 0 true (Lst 3 (fun _ => 7%Z) (fun _ => 7%Z) (fun _ => 7%Z)),
        gen_random 4 2 (fun t => (Nat.eqb (t mod 3) 0, Z.of_nat t, 1%Z, 0%Z)) 0 false (Lst 3 (fun _ => 7%Z) (fun _ => 7%Z) (fun _ => 7%Z)) with
  | Some a, Some b => l_pid a = 5%Z /\ l_pid b = 5%Z /\ map (point_at b) [3; 4]%Z = [(0, 1, 0); (3, 1, 0)]%Z | _, _ => False end.
Proof. vm_compute. repeat split; reflexivity. Qed.

(** ** C49: the particles keep their spacing *)
Local Open Scope R_scope.
Definition dist2 (p q : R * R * R) : R :=
  (fst (fst p) - fst (fst q)) ^ 2 + (snd (fst p) - snd (fst q)) ^ 2 + (snd p - snd q) ^ 2.
(** Any two particles written by a run are a distance of sqrt [m] or more apart. *)
Definition spaced (m : R) (g : bool -> lst R -> option (lst R)) : Prop :=
  forall s s', g false s = Some s' -> forall a b, (l_pid s <= a < l_pid s')%Z -> (l_pid s <= b < l_pid s')%Z -> a <> b ->
    m <= dist2 (point_at s' a) (point_at s' b).

Lemma fop_concat (T : Type) (rel : T -> T -> Prop) : forall L : list (list T),
  (forall n l, nth_error L n = Some l -> ForallOrdPairs rel l) ->
  (forall n m l l' x y, (n < m)%nat -> nth_error L n = Some l -> nth_error L m = Some l' -> In x l -> In y l' -> rel x y) ->
  ForallOrdPairs rel (concat L).
Proof.
  induction L as [|l L IH]; intros H1 H2; cbn [concat]; [constructor|].
  assert (HL : ForallOrdPairs rel (concat L)).
  { apply IH; [intros n l' Hn; apply (H1 (S n) l' Hn)|].
    intros n m a b x y Hnm Hn Hm. apply (H2 (S n) (S m)); [lia | exact Hn | exact Hm]. }
  assert (Hl : ForallOrdPairs rel l) by (apply (H1 O l); reflexivity).
  assert (Hx : forall x y, In x l -> In y (concat L) -> rel x y).
  { intros x y Hx Hy. apply in_concat in Hy. destruct Hy as (l' & Hl' & Hy). apply In_nth_error in Hl'. destruct Hl' as (m & Hm).
    apply (H2 O (S m) l l'); [lia | reflexivity | exact Hm | exact Hx | exact Hy]. }
  clear - HL Hl Hx. induction Hl as [|a l Ha Hl IHl]; cbn [app]; [exact HL|]. constructor.
  - apply Forall_app. split; [exact Ha|]. rewrite Forall_forall. intros y Hy. apply Hx; [left; reflexivity | exact Hy].
  - apply IHl. intros x y Hx' Hy. apply Hx; [right; exact Hx' | exact Hy].
Qed.
Lemma fop_nth (T : Type) (rel : T -> T -> Prop) : forall l, ForallOrdPairs rel l -> forall a b x y, (a < b)%nat -> nth_error l a = Some x -> nth_error l b = Some y -> rel x y.
Proof.
  induction 1 as [|p l Hp Hl IH]; intros a b x y Hab Ha Hb.
  - destruct a; discriminate.
  - destruct b as [|b]; [lia|]. destruct a as [|a]; cbn [nth_error] in Ha, Hb.
    + injection Ha as <-. rewrite Forall_forall in Hp. apply Hp. eapply nth_error_In; exact Hb.
    + apply (IH a b); [lia | exact Ha | exact Hb].
Qed.
Lemma dist2_sym : forall p q, dist2 p q = dist2 q p.
Proof. intros. unfold dist2. ring. Qed.
Lemma spaced_of : forall m g, (forall c s, g c s = None) \/ (exists pts, Emits g pts /\ ForallOrdPairs (fun p q => m <= dist2 p q) pts) -> spaced m g.
Proof.
  intros m g [N|(pts & E & H)] s s' R a b Ha Hb Hab; [rewrite N in R; discriminate|].
  rewrite E in R. injection R as <-. rewrite emit_pid in Ha, Hb.
  assert (HN : forall a, (l_pid s <= a < l_pid s + Z.of_nat (length pts))%Z -> exists p, nth_error pts (Z.to_nat (a - l_pid s)) = Some p /\ point_at (emit false pts s) a = p).
  { intros j Hj. destruct (nth_error pts (Z.to_nat (j - l_pid s))) as [p|] eqn:En.
    - exists p. split; [reflexivity|]. pose proof (emit_nth pts s _ _ En) as Hp. rewrite Z2Nat.id in Hp by lia. replace (l_pid s + (j - l_pid s))%Z with j in Hp by lia. exact Hp.
    - apply nth_error_None in En. lia. }
  destruct (HN a Ha) as (p & Np & ->). destruct (HN b Hb) as (q & Nq & ->).
  destruct (Z.lt_ge_cases a b) as [L|L].
  - apply (fop_nth _ _ _ H (Z.to_nat (a - l_pid s)) (Z.to_nat (b - l_pid s)) p q); [lia | exact Np | exact Nq].
  - rewrite dist2_sym. apply (fop_nth _ _ _ H (Z.to_nat (b - l_pid s)) (Z.to_nat (a - l_pid s)) q p); [lia | exact Nq | exact Np].
Qed.
Lemma xs_at_R : forall n x d, xs_at RA n x d = x + IZR (Z.of_nat n) * d.
Proof. induction n as [|n IH]; intros x d; cbn [xs_at]; [cbn; ring|]. rewrite IH. cbn [a_add RA]. rewrite Nat2Z.inj_succ, succ_IZR. ring. Qed.
Lemma flip_at : forall n, os_at n 0 (flip RA) = IZR (Z.of_nat n mod 2).
Proof.
  assert (H : forall n, os_at n 0 (flip RA) = IZR (Z.of_nat n mod 2) /\ os_at n 1 (flip RA) = IZR ((Z.of_nat n + 1) mod 2)).
  { induction n as [|n [I0 I1]]; [split; reflexivity|]. cbn [os_at].
    replace (flip RA 0) with 1 by (unfold flip; cbn; ring). replace (flip RA 1) with 0 by (unfold flip; cbn; ring).
    rewrite I0, I1, Nat2Z.inj_succ. split; [f_equal|]. f_equal. unfold Z.succ. rewrite <- Z.add_assoc. change (1 + 1)%Z with (1 * 2)%Z. rewrite Z.mod_add by lia. reflexivity. }
  intros n. apply H.
Qed.
Lemma Rlt_b_true : forall a b, Rlt_b a b = true <-> a < b.
Proof. intros. unfold Rlt_b. destruct (Rlt_dec a b); split; intros; auto; try discriminate; lra. Qed.
Lemma fcc_at : forall n, os_at n 0 (next_fcc RA) = IZR (Z.of_nat n mod 4).
Proof.
  assert (T : forall a b, a < b -> Rlt_b a b = true) by (intros; apply Rlt_b_true; assumption).
  assert (T' : Rlt_b 3 3 = false) by (destruct (Rlt_b 3 3) eqn:E; [apply Rlt_b_true in E; lra | reflexivity]).
  assert (N0 : next_fcc RA 0 = 1) by (unfold next_fcc; cbn; rewrite T by lra; ring).
  assert (N1 : next_fcc RA 1 = 2) by (unfold next_fcc; cbn; rewrite T by lra; ring).
  assert (N2 : next_fcc RA 2 = 3) by (unfold next_fcc; cbn; rewrite T by lra; ring).
  assert (N3 : next_fcc RA 3 = 0) by (unfold next_fcc; cbn; rewrite T'; ring).
  assert (H : forall n, os_at n 0 (next_fcc RA) = IZR (Z.of_nat n mod 4) /\ os_at n 1 (next_fcc RA) = IZR ((Z.of_nat n + 1) mod 4) /\
    os_at n 2 (next_fcc RA) = IZR ((Z.of_nat n + 2) mod 4) /\ os_at n 3 (next_fcc RA) = IZR ((Z.of_nat n + 3) mod 4)).
  { induction n as [|n (I0 & I1 & I2 & I3)]; [repeat split; reflexivity|]. cbn [os_at]. rewrite N0, N1, N2, N3, I0, I1, I2, I3, Nat2Z.inj_succ. unfold Z.succ. rewrite <- ! Z.add_assoc.
    split; [reflexivity|]. split; [reflexivity|]. split; [reflexivity|].
    change (1 + 3)%Z with (1 * 4)%Z. rewrite Z.mod_add by lia. reflexivity. }
  intros n. apply H.
Qed.
Lemma same_at : forall n (o : R), os_at n o same = o.
Proof. induction n as [|n IH]; intros o; cbn [os_at]; [reflexivity | apply IH]. Qed.

(** One row: an arithmetic progression, filtered *)
Lemma row : forall fuel x0 o0 b d (ins : R -> bool) y z, (exists l,
    Emits (floop RA fuel x0 o0 b d same (fun x _ => place (ins x) x y z)) l /\
    (forall p, In p l -> exists i : Z, p = (x0 + IZR i * d, y, z)) /\
    ForallOrdPairs (fun p q => d ^ 2 <= dist2 p q) l) \/
  (forall c s, floop RA fuel x0 o0 b d same (fun x _ => place (ins x) x y z) c s = None).
Proof.
  intros fuel x0 o0 b d ins y z.
  destruct (floop_trace RA b d same (fun x _ => place (ins x) x y z) (fun x _ => place_fine (ins x) x y z) fuel x0 o0) as [N|(L & E & H & _)]; [right; exact N|].
  left. exists (concat L). split; [exact E|].
  assert (HI : forall n l p, nth_error L n = Some l -> In p l -> p = (x0 + IZR (Z.of_nat n) * d, y, z) /\ length l = 1%nat).
  { intros n l p Hn Hp. destruct (H n l Hn) as [El _]. pose proof (place_emits (ins (xs_at RA n x0 d)) (xs_at RA n x0 d) y z) as Ep.
    assert (l = if ins (xs_at RA n x0 d) then [(xs_at RA n x0 d, y, z)] else []) as ->.
    { apply (emits_unique _ _ _ El Ep). }
    destruct (ins _); [|destruct Hp]. destruct Hp as [<-|[]]. rewrite xs_at_R. split; reflexivity. }
  split.
  - intros p Hp. apply in_concat in Hp. destruct Hp as (l & Hl & Hp). apply In_nth_error in Hl. destruct Hl as (n & Hn).
    exists (Z.of_nat n). apply (HI n l p Hn Hp).
  - apply fop_concat.
    + intros n l Hn. destruct l as [|p [|q l]]; [constructor | repeat constructor |].
      destruct (HI n (p :: q :: l) p Hn (or_introl eq_refl)) as [_ Hl]. cbn in Hl. discriminate.
    + intros n m l l' p q Hnm Hn Hm Hp Hq. destruct (HI n l p Hn Hp) as [-> _]. destruct (HI m l' q Hm Hq) as [-> _].
      unfold dist2; cbn [fst snd].
      replace ((x0 + IZR (Z.of_nat n) * d - (x0 + IZR (Z.of_nat m) * d)) ^ 2 + (y - y) ^ 2 + (z - z) ^ 2) with (d ^ 2 * IZR ((Z.of_nat n - Z.of_nat m) * (Z.of_nat n - Z.of_nat m))) by (rewrite mult_IZR, minus_IZR; ring).
      assert (1 <= IZR ((Z.of_nat n - Z.of_nat m) * (Z.of_nat n - Z.of_nat m))) by (apply (IZR_le 1); nia).
      pose proof (pow2_ge_0 d). nra.
Qed.

(** The loops end *)
Lemma floop_ends : forall b d nx body, 0 <= d -> forall fuel x o (N : nat), (N < fuel)%nat -> b <= x + IZR (Z.of_nat N) * d ->
  (forall n, exists pts, Emits (body (xs_at RA n x d) (os_at n o nx)) pts) ->
  exists pts, Emits (floop RA fuel x o b d nx body) pts.
Proof.
  intros b d nx body Hd. induction fuel as [|k IH]; intros x o N HN Hb H; [lia|]. cbn [floop].
  destruct (a_lt RA x b) eqn:El.
  2:{ exists []. intros c s. reflexivity. }
  destruct N as [|N]; [exfalso; cbn in El; apply Rlt_b_true in El; cbn in Hb; lra|].
  destruct (H O) as (p & Ep). cbn [xs_at os_at] in Ep.
  destruct (IH (a_add RA x d) (nx o) N) as (q & Eq); [lia | cbn [a_add RA]; rewrite Nat2Z.inj_succ, succ_IZR in Hb; lra | intros n; exact (H (S n)) |].
  exists (p ++ q). intros c s. rewrite Ep, emit_app. apply Eq.
Qed.
(** and go through all rounds below the bound *)
Lemma floop_mem : forall b d nx body, (forall x o, fine (body x o)) -> forall fuel x o P n, 0 <= d ->
  Emits (floop RA fuel x o b d nx body) P -> xs_at RA n x d < b -> exists l, Emits (body (xs_at RA n x d) (os_at n o nx)) l /\ incl l P.
Proof.
  intros b d nx body Hf fuel x o P n Hd EP Hn.
  destruct (floop_trace RA b d nx body Hf fuel x o) as [N|(L & E & H & HE)].
  { exfalso. specialize (EP true (Lst 0 (fun _ => 0) (fun _ => 0) (fun _ => 0))). rewrite N in EP. discriminate. }
  rewrite (emits_unique _ _ _ EP E). destruct (nth_error L n) as [l|] eqn:En.
  - exists l. split; [apply (H n l En)|]. intros p Hp. apply in_concat. exists l. split; [eapply nth_error_In; exact En | exact Hp].
  - exfalso. apply nth_error_None in En. cbn [a_lt RA] in HE. rewrite xs_at_R in Hn, HE.
    assert (x + IZR (Z.of_nat (length L)) * d < b) as HH.
    { apply inj_le in En. apply IZR_le in En. nra. }
    apply Rlt_b_true in HH. congruence.
Qed.

Definition good (m : R) (g : bool -> lst R -> option (lst R)) (Sh : R * R * R -> Prop) : Prop :=
  (forall c s, g c s = None) \/ exists l, Emits g l /\ (forall p, In p l -> Sh p) /\ ForallOrdPairs (fun p q => m <= dist2 p q) l.
Lemma good_fine : forall m g Sh, good m g Sh -> fine g.
Proof. intros m g Sh [N|(l & E & _)]; [left; exact N | right; exists l; exact E]. Qed.
Lemma good_spaced : forall m g Sh, good m g Sh -> spaced m g.
Proof. intros m g Sh [N|(l & E & _ & H)]; apply spaced_of; [left; exact N | right; exists l; split; assumption]. Qed.
Lemma row_good : forall fuel x0 o0 b d (ins : R -> bool) y z,
  good (d ^ 2) (floop RA fuel x0 o0 b d same (fun x _ => place (ins x) x y z)) (fun p => exists i : Z, p = (x0 + IZR i * d, y, z)).
Proof. intros. destruct (row fuel x0 o0 b d ins y z) as [(l & E & H1 & H2)|N]; [right; exists l; auto | left; exact N]. Qed.
(** A loop over rows or planes *)
Lemma lift : forall m fuel x0 o0 b d nx body (Sh : R -> R -> R * R * R -> Prop),
  (forall x o, good m (body x o) (Sh x o)) ->
  (forall n k p q, (n < k)%nat -> Rlt_b (xs_at RA k x0 d) b = true -> Sh (xs_at RA n x0 d) (os_at n o0 nx) p -> Sh (xs_at RA k x0 d) (os_at k o0 nx) q -> m <= dist2 p q) ->
  good m (floop RA fuel x0 o0 b d nx body) (fun p => exists n, Rlt_b (xs_at RA n x0 d) b = true /\ Sh (xs_at RA n x0 d) (os_at n o0 nx) p).
Proof.
  intros m fuel x0 o0 b d nx body Sh Hb Hx.
  destruct (floop_trace RA b d nx body (fun x o => good_fine _ _ _ (Hb x o)) fuel x0 o0) as [N|(L & E & H & _)]; [left; exact N|].
  right. exists (concat L). split; [exact E|].
  assert (HI : forall n l, nth_error L n = Some l -> Rlt_b (xs_at RA n x0 d) b = true /\ (forall p, In p l -> Sh (xs_at RA n x0 d) (os_at n o0 nx) p) /\ ForallOrdPairs (fun p q => m <= dist2 p q) l).
  { intros n l Hn. destruct (H n l Hn) as [El Hlt]. split; [exact Hlt|].
    destruct (Hb (xs_at RA n x0 d) (os_at n o0 nx)) as [N|(l' & El' & H1 & H2)].
    - exfalso. specialize (El true (Lst 0 (fun _ => 0) (fun _ => 0) (fun _ => 0))). rewrite N in El. discriminate.
    - rewrite (emits_unique _ _ _ El El'). split; assumption. }
  split.
  - intros p Hp. apply in_concat in Hp. destruct Hp as (l & Hl & Hp). apply In_nth_error in Hl. destruct Hl as (n & Hn).
    exists n. destruct (HI n l Hn) as (H0 & H1 & _). split; [exact H0 | apply H1; exact Hp].
  - apply fop_concat.
    + intros n l Hn. apply (HI n l Hn).
    + intros n k l l' p q Hnk Hn Hk Hp Hq. destruct (HI n l Hn) as (_ & H1 & _). destruct (HI k l' Hk) as (H0' & H1' & _).
      apply (Hx n k); auto.
Qed.

(** The quadratic forms of the lattices in integers *)
Lemma form_rect : forall sep (a b c : Z), (a <> 0 \/ b <> 0 \/ c <> 0)%Z ->
  sep ^ 2 <= (sep * IZR a) ^ 2 + (sep * IZR b) ^ 2 + (sep * IZR c) ^ 2.
Proof.
  intros sep a b c H. replace ((sep * IZR a) ^ 2 + (sep * IZR b) ^ 2 + (sep * IZR c) ^ 2) with (sep ^ 2 * IZR (a * a + b * b + c * c)) by (rewrite ! plus_IZR, ! mult_IZR; ring).
  assert (1 <= IZR (a * a + b * b + c * c)) by (apply (IZR_le 1); nia). pose proof (pow2_ge_0 sep). nra.
Qed.
Lemma form_hex : forall sep (p q r m : Z), (m <= 3 * p * p + q * q + 8 * r * r)%Z ->
  IZR m / 12 * sep ^ 2 <= (sep * IZR p / 2) ^ 2 + (sep * sqrt 3 / 2 * IZR q / 3) ^ 2 + (sep * sqrt (2 / 3) * IZR r) ^ 2.
Proof.
  intros sep p q r m H. pose proof (pow2_sqrt 3 ltac:(lra)) as S3. pose proof (pow2_sqrt (2 / 3) ltac:(lra)) as S23.
  replace ((sep * IZR p / 2) ^ 2 + (sep * sqrt 3 / 2 * IZR q / 3) ^ 2 + (sep * sqrt (2 / 3) * IZR r) ^ 2) with (sep ^ 2 * ((IZR p) ^ 2 / 4 + (sqrt 3) ^ 2 * (IZR q) ^ 2 / 36 + (sqrt (2 / 3)) ^ 2 * (IZR r) ^ 2)) by field.
  rewrite S3, S23. replace (IZR p ^ 2 / 4 + 3 * IZR q ^ 2 / 36 + 2 / 3 * IZR r ^ 2) with (IZR (3 * p * p + q * q + 8 * r * r) / 12) by (rewrite ! plus_IZR, ! mult_IZR; field).
  apply IZR_le in H. pose proof (pow2_ge_0 sep). nra.
Qed.

Lemma tri_form : forall u v a b i j n k : Z, (n = 2 * u + a -> k = 2 * v + b -> 0 <= a < 2 -> 0 <= b < 2 -> n < k ->
  12 <= 3 * (2 * (i - j) + (a - b)) * (2 * (i - j) + (a - b)) + 3 * (n - k) * (3 * (n - k)) + 8 * 0 * 0)%Z.
Proof.
  intros u v a b i j n k En Ek Ba Bb Hl. set (D := (n - k)%Z). set (p := (2 * (i - j) + (a - b))%Z).
  assert (D < 0)%Z by lia. destruct (Z.eq_dec D (-1)) as [E1|E1].
  - assert (p <> 0)%Z by lia. nia.
  - assert (D <= -2)%Z by lia. nia.
Qed.
(** ... so with a positive spacing there is enough fuel for any box. *)
Lemma sqrt3_bounds : 1 < sqrt 3 < 2.
Proof.
  split; [rewrite <- sqrt_1 at 1; apply sqrt_lt_1; lra|].
  replace 2 with (sqrt (2 ^ 2)) by (apply sqrt_pow2; lra). apply sqrt_lt_1; lra.
Qed.
Lemma sqrt23_bounds : 1 / 2 < sqrt (2 / 3) < 1.
Proof.
  split; [|rewrite <- sqrt_1; apply sqrt_lt_1; lra].
  replace (1 / 2) with (sqrt ((1 / 2) ^ 2)) by (apply sqrt_pow2; lra). apply sqrt_lt_1; lra.
Qed.
Lemma mod2_bounds : forall n, 0 <= IZR (Z.of_nat n mod 2) <= 1.
Proof. intros n. pose proof (Z.mod_pos_bound (Z.of_nat n) 2 eq_refl). split; apply IZR_le; lia. Qed.
Lemma mod4_bounds : forall n, 0 <= IZR (Z.of_nat n mod 4) <= 3.
Proof. intros n. pose proof (Z.mod_pos_bound (Z.of_nat n) 4 eq_refl). split; apply IZR_le; lia. Qed.
Lemma enough_rounds : forall sep w, 0 < sep -> exists N : nat, forall x b d, b - x <= w + 4 * sep -> sep / 2 <= d -> b <= x + IZR (Z.of_nat N) * d.
Proof.
  intros sep w Hs. destruct (archimed ((Rabs w + 4 * sep) / (sep / 2))) as [Ha _].
  set (u := up ((Rabs w + 4 * sep) / (sep / 2))) in *. exists (Z.to_nat u). intros x b d Hb Hd.
  assert (Hu : 0 <= IZR u) by (pose proof (Rabs_pos w); apply Rlt_le; eapply Rle_lt_trans; [|exact Ha]; apply Rlt_le, Rdiv_lt_0_compat; lra).
  rewrite Z2Nat.id by (apply le_IZR; exact Hu).
  assert (Rabs w + 4 * sep < IZR u * (sep / 2)).
  { replace (Rabs w + 4 * sep) with ((Rabs w + 4 * sep) / (sep / 2) * (sep / 2)) by (field; lra). apply Rmult_lt_compat_r; lra. }
  pose proof (Rle_abs w). nra.
Qed.
Theorem C48_ends : forall lattice_type domain_type bmin bmax sep, 0 < sep ->
  exists fuel, forall c s, gen_1d RA fuel bmin bmax sep c s <> None /\ gen_2d RA fuel lattice_type domain_type bmin bmax sep c s <> None /\
    gen_3d RA fuel lattice_type domain_type bmin bmax sep c s <> None.
Proof.
  intros ty dt bmin bmax sep Hs.
  set (w := Rmax (bmax O - bmin O) (Rmax (bmax 1%nat - bmin 1%nat) (bmax 2%nat - bmin 2%nat))).
  assert (W0 : bmax O - bmin O <= w) by apply Rmax_l.
  assert (W1 : bmax 1%nat - bmin 1%nat <= w) by (eapply Rle_trans; [apply Rmax_l | apply Rmax_r]).
  assert (W2 : bmax 2%nat - bmin 2%nat <= w) by (eapply Rle_trans; [apply Rmax_r | apply Rmax_r]).
  clearbody w. destruct (enough_rounds sep w Hs) as (N & HN). exists (S N).
  pose proof sqrt3_bounds as B3. pose proof sqrt23_bounds as B23.
  assert (D3 : sep / 2 <= sep * sqrt 3 / 2 <= sep) by (split; nra). assert (D23 : sep / 2 <= sep * sqrt (2 / 3)) by nra.
  assert (HP : forall i x y z, exists pts, Emits (@place R i x y z) pts) by (intros; eexists; apply place_emits).
  assert (HE : forall g, (exists pts, Emits g pts) -> forall c (s : lst R), g c s <> None) by (intros g (pts & E) c s; rewrite E; discriminate).
  intros c s. split; [|split].
  - apply (HE (gen_1d RA (S N) bmin bmax sep)). apply (floop_ends (bmax O) sep same) with (N := N); [lra | lia | apply HN; lra | intros n; apply HP].
  - apply (HE (gen_2d RA (S N) ty dt bmin bmax sep)). unfold gen_2d. destruct (ty =? 0)%Z; cbn [a_mul a_div a_sqrt a_ofz a_add RA].
    + apply floop_ends with (N := N); [lra | lia | apply HN; lra |]. intros n.
      apply floop_ends with (N := N); [lra | lia | apply HN; lra | intros; apply HP].
    + apply floop_ends with (N := N); [lra | lia | apply HN; lra |]. intros n. rewrite flip_at. pose proof (mod2_bounds n).
      apply floop_ends with (N := N); [lra | lia | apply HN; nra | intros; apply HP].
  - apply (HE (gen_3d RA (S N) ty dt bmin bmax sep)). unfold gen_3d. cbn [a_mul a_div a_sqrt a_ofz a_add a_sub RA].
    destruct (ty =? 0)%Z; [|destruct (ty =? 1)%Z; [|destruct (ty =? 2)%Z]].
    + apply floop_ends with (N := N); [lra | lia | apply HN; lra |]. intros n.
      apply floop_ends with (N := N); [lra | lia | apply HN; lra |]. intros n'.
      apply floop_ends with (N := N); [lra | lia | apply HN; lra | intros; apply HP].
    + apply floop_ends with (N := N); [lra | lia | apply HN; lra |]. intros n. rewrite flip_at. pose proof (mod2_bounds n).
      apply floop_ends with (N := N); [lra | lia | apply HN; nra |]. intros n'. rewrite flip_at. pose proof (mod2_bounds n').
      apply floop_ends with (N := N); [lra | lia | apply HN; nra | intros; apply HP].
    + apply floop_ends with (N := N); [lra | lia | apply HN; lra |]. intros n. rewrite fcc_at. pose proof (mod4_bounds n).
      apply floop_ends with (N := N); [lra | lia | apply HN; nra |]. intros n'. rewrite flip_at. pose proof (mod2_bounds n').
      apply floop_ends with (N := N); [lra | lia | apply HN; nra | intros; apply HP].
    + exists []. intros c' s'. reflexivity.
Qed.

(** C49: lines, square and triangular, cubic and hexagonal close-packed lattices *)
Theorem C49_1d : forall fuel bmin bmax sep, spaced (sep ^ 2) (gen_1d RA fuel bmin bmax sep).
Proof. intros. eapply good_spaced. unfold gen_1d. apply row_good. Qed.
Theorem C49_2d : forall fuel lattice_type domain_type bmin bmax sep, spaced (sep ^ 2) (gen_2d RA fuel lattice_type domain_type bmin bmax sep).
Proof.
  intros fuel ty dt bmin bmax sep. unfold gen_2d. destruct (ty =? 0)%Z; eapply good_spaced; apply lift.
  - intros y o. eapply row_good.
  - intros n k p q Hnk _ (i & ->) (i' & ->). unfold dist2; cbn [fst snd a_ofz RA]. rewrite ! xs_at_R.
    replace (bmin O + IZR i * sep - (bmin O + IZR i' * sep)) with (sep * IZR (i - i')) by (rewrite minus_IZR; ring).
    replace (bmin 1%nat + IZR (Z.of_nat n) * sep - (bmin 1%nat + IZR (Z.of_nat k) * sep)) with (sep * IZR (Z.of_nat n - Z.of_nat k)) by (rewrite minus_IZR; ring).
    replace (0 - 0) with (sep * IZR 0) by ring. apply form_rect. lia.
  - intros y o. eapply row_good.
  - intros n k p q Hnk _ (i & ->) (i' & ->). unfold dist2; cbn [fst snd a_ofz a_add a_mul a_div a_sqrt RA]. rewrite ! xs_at_R, ! flip_at.
    set (a := (Z.of_nat n mod 2)%Z). set (b := (Z.of_nat k mod 2)%Z).
    match goal with |- _ <= ?X ^ 2 + ?Y ^ 2 + _ => replace X with (sep * IZR (2 * (i - i') + (a - b)) / 2) by (rewrite plus_IZR, mult_IZR, ! minus_IZR; field);
      replace Y with (sep * sqrt 3 / 2 * IZR (3 * (Z.of_nat n - Z.of_nat k)) / 3) by (rewrite mult_IZR, minus_IZR; field) end.
    replace (0 - 0) with (sep * sqrt (2 / 3) * IZR 0) by ring.
    replace (sep ^ 2) with (IZR 12 / 12 * sep ^ 2) by field. apply form_hex.
    pose proof (Z.div_mod (Z.of_nat n) 2 ltac:(lia)) as En. pose proof (Z.div_mod (Z.of_nat k) 2 ltac:(lia)) as Ek. fold a in En. fold b in Ek.
    pose proof (Z.mod_pos_bound (Z.of_nat n) 2 ltac:(lia)) as Bn. pose proof (Z.mod_pos_bound (Z.of_nat k) 2 ltac:(lia)) as Bk. fold a in Bn. fold b in Bk.
    eapply tri_form; [exact En | exact Ek | lia | lia | lia].
Qed.

Lemma good_weaken : forall m g (S1 S2 : R * R * R -> Prop), (forall p, S1 p -> S2 p) -> good m g S1 -> good m g S2.
Proof. intros m g S1 S2 H [N|(l & E & H1 & H2)]; [left; exact N | right; exists l; split; [exact E|]; split; [intros p Hp; apply H, H1, Hp | exact H2]]. Qed.
(** A plane of the close-packed lattices *)
Lemma plane_good : forall fuel xmin xmax ymin ymax sep (ins : R -> R -> bool) zo z,
  good (sep ^ 2) (floop RA fuel (ymin - zo * (sep * sqrt 3 / 2) / 3) 0 ymax (sep * sqrt 3 / 2) (flip RA) (fun y yo =>
     floop RA fuel (xmin + (yo - zo) * sep / 2) 0 xmax sep same (fun x _ => place (ins x y) x y z)))
   (fun p => exists i j : Z, p = (xmin + (IZR (j mod 2) - zo) * sep / 2 + IZR i * sep, ymin - zo * (sep * sqrt 3 / 2) / 3 + IZR j * (sep * sqrt 3 / 2), z)).
Proof.
  intros. eapply good_weaken; [|apply lift].
  2:{ intros y o. apply (row_good fuel _ 0 xmax sep (fun x => ins x y) y z). }
  - cbv beta. intros p (n & _ & i & ->). exists i, (Z.of_nat n). rewrite xs_at_R, flip_at. reflexivity.
  - cbv beta. intros n k p q Hnk _ (i & ->) (i' & ->). unfold dist2; cbn [fst snd]. rewrite ! xs_at_R, ! flip_at.
    pose proof (Z.div_mod (Z.of_nat n) 2 ltac:(lia)) as En. pose proof (Z.div_mod (Z.of_nat k) 2 ltac:(lia)) as Ek.
    pose proof (Z.mod_pos_bound (Z.of_nat n) 2 ltac:(lia)) as Bn. pose proof (Z.mod_pos_bound (Z.of_nat k) 2 ltac:(lia)) as Bk.
    set (a := (Z.of_nat n mod 2)%Z) in *. set (b := (Z.of_nat k mod 2)%Z) in *.
    match goal with |- _ <= ?X ^ 2 + ?Y ^ 2 + _ => replace X with (sep * IZR (2 * (i - i') + (a - b)) / 2) by (rewrite plus_IZR, mult_IZR, ! minus_IZR; field);
      replace Y with (sep * sqrt 3 / 2 * IZR (3 * (Z.of_nat n - Z.of_nat k)) / 3) by (rewrite mult_IZR, minus_IZR; field) end.
    replace (z - z) with (sep * sqrt (2 / 3) * IZR 0) by ring.
    replace (sep ^ 2) with (IZR 12 / 12 * sep ^ 2) by field. apply form_hex. eapply tri_form; [exact En | exact Ek | lia | lia | lia].
Qed.
(** Points of two planes [r] layers apart whose offsets differ by [t] *)
Lemma planes : forall xmin ymin zmin sep (i j i' j' a b n k m : Z),
  (m <= 3 * (2 * (i - i') + (j mod 2 - j' mod 2) - (a - b)) * (2 * (i - i') + (j mod 2 - j' mod 2) - (a - b)) +
        (3 * (j - j') - (a - b)) * (3 * (j - j') - (a - b)) + 8 * (n - k) * (n - k))%Z ->
  IZR m / 12 * sep ^ 2 <= dist2
    (xmin + (IZR (j mod 2) - IZR a) * sep / 2 + IZR i * sep, ymin - IZR a * (sep * sqrt 3 / 2) / 3 + IZR j * (sep * sqrt 3 / 2), zmin + IZR n * (sep * sqrt (2 / 3)))
    (xmin + (IZR (j' mod 2) - IZR b) * sep / 2 + IZR i' * sep, ymin - IZR b * (sep * sqrt 3 / 2) / 3 + IZR j' * (sep * sqrt 3 / 2), zmin + IZR k * (sep * sqrt (2 / 3))).
Proof.
  intros xmin ymin zmin sep i j i' j' a b n k m H. unfold dist2; cbn [fst snd].
  match goal with |- _ <= ?X ^ 2 + ?Y ^ 2 + ?W ^ 2 =>
    replace X with (sep * IZR (2 * (i - i') + (j mod 2 - j' mod 2) - (a - b)) / 2) by (rewrite minus_IZR, plus_IZR, mult_IZR, ! minus_IZR; field);
    replace Y with (sep * sqrt 3 / 2 * IZR (3 * (j - j') - (a - b)) / 3) by (rewrite minus_IZR, mult_IZR, ! minus_IZR; field);
    replace W with (sep * sqrt (2 / 3) * IZR (n - k)) by (rewrite minus_IZR; ring) end.
  apply form_hex. exact H.
Qed.
Lemma stack_form : forall i i' j j' a b n k : Z, (n < k -> (k = n + 1 -> b = a + 1 \/ a = b + 1) ->
  12 <= 3 * (2 * (i - i') + (j mod 2 - j' mod 2) - (a - b)) * (2 * (i - i') + (j mod 2 - j' mod 2) - (a - b)) +
        (3 * (j - j') - (a - b)) * (3 * (j - j') - (a - b)) + 8 * (n - k) * (n - k))%Z.
Proof.
  intros i i' j j' a b n k Hl Ho.
  pose proof (Z.div_mod j 2 ltac:(lia)) as Ej. pose proof (Z.div_mod j' 2 ltac:(lia)) as Ej'.
  set (c := (j mod 2)%Z) in *. set (c' := (j' mod 2)%Z) in *.
  set (p := (2 * (i - i') + (c - c') - (a - b))%Z). set (q := (3 * (j - j') - (a - b))%Z).
  destruct (Z.eq_dec k (n + 1)) as [E|E].
  - assert (Hq : (q <> 0)%Z) by (specialize (Ho E); lia).
    assert (Hpq : (p = 0 -> q <> 1 /\ q <> -1)%Z) by (specialize (Ho E); lia).
    subst k. replace (n - (n + 1))%Z with (-1)%Z by lia. clearbody p q.
    destruct (Z.eq_dec p 0) as [Ep|Ep]; [destruct (Hpq Ep); nia | nia].
  - assert (n - k <= -2)%Z by lia. clearbody p q. nia.
Qed.
Theorem C49_3d : forall fuel lattice_type domain_type bmin bmax sep, (lattice_type <> 2)%Z ->
  spaced (sep ^ 2) (gen_3d RA fuel lattice_type domain_type bmin bmax sep).
Proof.
  intros fuel ty dt bmin bmax sep Hty. unfold gen_3d. destruct (ty =? 0)%Z; [|destruct (ty =? 1)%Z; [|destruct (Z.eqb_spec ty 2); [contradiction|]]].
  - eapply good_spaced, lift.
    + intros z o. eapply (good_weaken _ _ _ (fun p => exists i j : Z, p = (bmin O + IZR i * sep, bmin 1%nat + IZR j * sep, z))); [|apply lift].
      2:{ intros y o1. apply (row_good fuel (bmin O) (a_ofz RA 0) (bmax O) sep (fun x => in_domain_3d RA x y z bmin bmax dt) y z). }
      * cbv beta. intros p (n' & _ & i & ->). exists i, (Z.of_nat n'). rewrite xs_at_R. reflexivity.
      * cbv beta. intros n' k p q Hnk _ (i & ->) (i' & ->). unfold dist2; cbn [fst snd]. rewrite ! xs_at_R.
        replace (bmin O + IZR i * sep - (bmin O + IZR i' * sep)) with (sep * IZR (i - i')) by (rewrite minus_IZR; ring).
        replace (bmin 1%nat + IZR (Z.of_nat n') * sep - (bmin 1%nat + IZR (Z.of_nat k) * sep)) with (sep * IZR (Z.of_nat n' - Z.of_nat k)) by (rewrite minus_IZR; ring).
        replace (z - z) with (sep * IZR 0) by ring. apply form_rect. lia.
    + cbv beta. intros n k p q Hnk _ (i & j & ->) (i' & j' & ->). unfold dist2; cbn [fst snd]. rewrite ! xs_at_R.
      replace (bmin O + IZR i * sep - (bmin O + IZR i' * sep)) with (sep * IZR (i - i')) by (rewrite minus_IZR; ring).
      replace (bmin 1%nat + IZR j * sep - (bmin 1%nat + IZR j' * sep)) with (sep * IZR (j - j')) by (rewrite minus_IZR; ring).
      replace (bmin 2%nat + IZR (Z.of_nat n) * sep - (bmin 2%nat + IZR (Z.of_nat k) * sep)) with (sep * IZR (Z.of_nat n - Z.of_nat k)) by (rewrite minus_IZR; ring).
      apply form_rect. lia.
  - eapply good_spaced, lift.
    + intros z zo. apply (plane_good fuel (bmin O) (bmax O) (bmin 1%nat) (bmax 1%nat) sep (fun x y => in_domain_3d RA x y z bmin bmax dt) zo z).
    + cbv beta. intros n k p q Hnk _ (i & j & ->) (i' & j' & ->). cbn [a_mul a_sqrt a_div a_ofz RA]. rewrite ! xs_at_R, ! flip_at.
      replace (sep ^ 2) with (IZR 12 / 12 * sep ^ 2) by field. apply planes. apply stack_form; [lia|].
      intros E. rewrite E. pose proof (Z.mod_pos_bound (Z.of_nat n) 2 ltac:(lia)). pose proof (Z.mod_pos_bound (Z.of_nat n + 1) 2 ltac:(lia)).
      pose proof (Z.div_mod (Z.of_nat n) 2 ltac:(lia)). pose proof (Z.div_mod (Z.of_nat n + 1) 2 ltac:(lia)). lia.
  - intros s s' R a b Ha Hb. injection R as <-. lia.
Qed.
(** Cubic close packing: as long as the box holds no more than four layers *)
Theorem C49_fcc_four_layers_partial : forall fuel domain_type bmin bmax sep, 0 < sep -> bmax 2%nat <= bmin 2%nat + 4 * (sep * sqrt (2 / 3)) ->
  spaced (sep ^ 2) (gen_3d RA fuel 2 domain_type bmin bmax sep).
Proof.
  intros fuel dt bmin bmax sep Hs Hz. unfold gen_3d. cbn [Z.eqb]. change (2 =? 0)%Z with false. change (2 =? 1)%Z with false. change (2 =? 2)%Z with true. cbv iota.
  eapply good_spaced, lift.
  - intros z zo. apply (plane_good fuel (bmin O) (bmax O) (bmin 1%nat) (bmax 1%nat) sep (fun x y => in_domain_3d RA x y z bmin bmax dt) zo z).
  - cbv beta. intros n k p q Hnk Hlt (i & j & ->) (i' & j' & ->). cbn [a_mul a_sqrt a_div a_ofz RA] in *. rewrite ! xs_at_R in *. rewrite ! fcc_at.
    apply Rlt_b_true in Hlt. assert (Sp : 0 < sep * sqrt (2 / 3)) by (apply Rmult_lt_0_compat; [exact Hs | apply sqrt_lt_R0; lra]).
    assert (Hk4 : (Z.of_nat k < 4)%Z) by (apply lt_IZR; apply (Rmult_lt_reg_r _ _ _ Sp); lra).
    replace (sep ^ 2) with (IZR 12 / 12 * sep ^ 2) by field. apply planes. apply stack_form; [lia|].
    rewrite ! Z.mod_small by lia. lia.
Qed.
(** for any box they are only sqrt (2/3) of the spacing apart ... *)
Theorem C49_fcc_any_partial : forall fuel domain_type bmin bmax sep,
  spaced (2 / 3 * sep ^ 2) (gen_3d RA fuel 2 domain_type bmin bmax sep).
Proof.
  intros fuel dt bmin bmax sep. unfold gen_3d. change (2 =? 0)%Z with false. change (2 =? 1)%Z with false. change (2 =? 2)%Z with true. cbv iota.
  eapply good_spaced, lift.
  - intros z zo. destruct (plane_good fuel (bmin O) (bmax O) (bmin 1%nat) (bmax 1%nat) sep (fun x y => in_domain_3d RA x y z bmin bmax dt) zo z) as [N|(l & E & H1 & H2)];
      [left; exact N | right; exists l; split; [exact E|]; split; [exact H1|]].
    clear - H2. pose proof (pow2_ge_0 sep). induction H2 as [|p l Hp Hl IH]; constructor; [|exact IH].
    eapply Forall_impl; [|exact Hp]. cbv beta. intros. lra.
  - cbv beta. intros n k p q Hnk Hlt (i & j & ->) (i' & j' & ->). cbn [a_mul a_sqrt a_div a_ofz RA] in *. rewrite ! xs_at_R in *. rewrite ! fcc_at.
    replace (2 / 3 * sep ^ 2) with (IZR 8 / 12 * sep ^ 2) by field. apply planes. 
    set (p := (2 * (i - i') + (j mod 2 - j' mod 2) - (Z.of_nat n mod 4 - Z.of_nat k mod 4))%Z). set (q := (3 * (j - j') - (Z.of_nat n mod 4 - Z.of_nat k mod 4))%Z).
    clearbody p q. assert (Z.of_nat n - Z.of_nat k <= -1)%Z by lia. nia.
Qed.

(** ... and with five layers the fourth and the fifth lie on top of each other: the
    layer counter of L266 runs through 0, 1, 2, 3, where layer 3 is layer 0 again. *)
Theorem C49_fcc_refuted : exists fuel bmin bmax s s' a b,
  gen_3d RA fuel 2 0 bmin bmax 1 false s = Some s' /\
  (l_pid s <= a < l_pid s')%Z /\ (l_pid s <= b < l_pid s')%Z /\ a <> b /\ dist2 (point_at s' a) (point_at s' b) = 2 / 3.
Proof.
  set (bmin := fun _ : nat => 0). set (bmax := fun _ : nat => 7 / 2). set (s := Lst 0 (fun _ : Z => 0) (fun _ => 0) (fun _ => 0)).
  destruct (C48_ends 2 0 bmin bmax 1 Rlt_0_1) as (fuel & HF). 
  pose proof (gen_3d_fine RA fuel 2 0 bmin bmax 1) as [N|(P & EP)]; [exfalso; destruct (HF true s) as (_ & _ & H); apply H, N|].
  pose proof sqrt3_bounds as B3. pose proof sqrt23_bounds as B23. pose proof (pow2_sqrt (2 / 3) ltac:(lra)) as S23.
  assert (D1 : 0 <= 1 * sqrt (2 / 3)) by lra. assert (D2 : 0 <= 1 * sqrt 3 / 2) by lra.
  set (z3 := 0 + IZR 3 * (1 * sqrt (2 / 3))). set (z4 := 0 + IZR 4 * (1 * sqrt (2 / 3))).
  assert (Z4 : 4 * sqrt (2 / 3) < 34 / 10) by nra.
  assert (Hin : forall z, 0 <= z < 34 / 10 -> in_domain_3d RA 0 0 z bmin bmax 0 = true).
  { intros z Hz. unfold in_domain_3d, bmin, bmax. cbn [a_lt a_sub a_mul a_div a_ofz RA]. unfold b_tol. cbn [a_div a_ofz RA Z.eqb].
    repeat (apply andb_true_intro; split); try reflexivity; apply Rlt_b_true; lra. }
  assert (M : forall k j i : nat, IZR (Z.of_nat k) * sqrt (2 / 3) < 34 / 10 ->
     bmin 1%nat - IZR (Z.of_nat k mod 4) * (1 * sqrt 3 / 2) / 3 + IZR (Z.of_nat j) * (1 * sqrt 3 / 2) = 0 ->
     bmin O + (IZR (Z.of_nat j mod 2) - IZR (Z.of_nat k mod 4)) * 1 / 2 + IZR (Z.of_nat i) * 1 = 0 ->
     In (0, 0, 0 + IZR (Z.of_nat k) * (1 * sqrt (2 / 3))) P).
  { intros k j i Hk Hj Hi. pose proof EP as EP'. unfold gen_3d in EP'. change (2 =? 0)%Z with false in EP'. change (2 =? 1)%Z with false in EP'. change (2 =? 2)%Z with true in EP'.
    cbv iota in EP'. cbn [a_mul a_div a_sqrt a_ofz a_add a_sub RA] in EP'.
    set (z := 0 + IZR (Z.of_nat k) * (1 * sqrt (2 / 3))). 
    assert (Hz : 0 <= z < 34 / 10) by (unfold z; pose proof (IZR_le 0 (Z.of_nat k) ltac:(lia)); split; nra).
    destruct (floop_mem _ _ _ _ (fun x o => floop_fine RA _ _ _ _ _ _ _ (fun x' o' => floop_fine RA _ _ _ _ _ _ _ (fun x1 o1 => place_fine _ _ _ _))) _ _ _ _ k D1 EP') as (Q & EQ & IQ).
    { rewrite xs_at_R. unfold bmin, bmax. fold z. lra. }
    rewrite xs_at_R, fcc_at in EQ. change (bmin 2%nat) with 0 in EQ. fold z in EQ.
    destruct (floop_mem _ _ _ _ (fun x o => floop_fine RA _ _ _ _ _ _ _ (fun x1 o1 => place_fine _ _ _ _)) _ _ _ _ j D2 EQ) as (T & ET & IT).
    { rewrite xs_at_R, Hj. unfold bmax. lra. }
    rewrite xs_at_R, flip_at, Hj in ET.
    destruct (floop_mem _ _ _ _ (fun x1 o1 => place_fine _ _ _ _) _ _ _ _ i (Rlt_le _ _ Rlt_0_1) ET) as (U & EU & IU).
    { rewrite xs_at_R, Hi. unfold bmax. lra. }
    rewrite xs_at_R, Hi, (Hin z Hz) in EU. rewrite (emits_unique _ _ _ EU (place_emits true 0 0 z)) in IU.
    apply IQ, IT, IU. left. reflexivity. }
  assert (M3 : In (0, 0, z3) P) by (apply (M 3%nat 1%nat 1%nat); change (Z.of_nat 3 mod 4)%Z with 3%Z; change (Z.of_nat 1 mod 2)%Z with 1%Z; unfold bmin; cbn; lra).
  assert (M4 : In (0, 0, z4) P) by (apply (M 4%nat 0%nat 0%nat); change (Z.of_nat 4 mod 4)%Z with 0%Z; change (Z.of_nat 0 mod 2)%Z with 0%Z; unfold bmin; cbn; lra).
  apply In_nth_error in M3. apply In_nth_error in M4. destruct M3 as (a & Ha). destruct M4 as (b & Hb).
  exists fuel, bmin, bmax, s, (emit false P s), (l_pid s + Z.of_nat a)%Z, (l_pid s + Z.of_nat b)%Z. split; [apply EP|].
  rewrite (emit_nth P s a _ Ha), (emit_nth P s b _ Hb), emit_pid.
  assert (La : (a < length P)%nat) by (apply nth_error_Some; congruence). assert (Lb : (b < length P)%nat) by (apply nth_error_Some; congruence).
  split; [lia|]. split; [lia|]. split.
  - intros E. assert (a = b) by lia. subst b. assert (z3 = z4) by congruence. unfold z3, z4 in *. lra.
  - unfold dist2, z3, z4; cbn [fst snd]. nra.
Qed.
(** The hypotheses met: a hexagonal lattice of spacing 1 in a box of side 7/2 is generated *)
Example C49_run : exists fuel s', gen_3d RA fuel 1 0 (fun _ => 0) (fun _ => 7 / 2) 1 false (Lst 0 (fun _ : Z => 0) (fun _ => 0) (fun _ => 0)) = Some s' /\ (2 <= l_pid s')%Z.
Proof.
  set (s := Lst 0 (fun _ : Z => 0) (fun _ => 0) (fun _ => 0)).
  destruct (C48_ends 1 0 (fun _ => 0) (fun _ => 7 / 2) 1 Rlt_0_1) as (fuel & HF). exists fuel.
  pose proof (gen_3d_fine RA fuel 1 0 (fun _ => 0) (fun _ => 7 / 2) 1) as [N|(P & EP)]; [exfalso; destruct (HF true s) as (_ & _ & H); apply H, N|].
  exists (emit false P s). split; [apply EP|]. rewrite emit_pid. cbn [l_pid s].
  assert (M : forall i : nat, (i < 2)%nat -> In (IZR (Z.of_nat i), 0, 0) P).
  { intros i Hi. unfold gen_3d in EP. change (1 =? 0)%Z with false in EP. change (1 =? 1)%Z with true in EP. cbv iota in EP. cbn [a_mul a_div a_sqrt a_ofz a_add a_sub RA] in EP.
    pose proof sqrt3_bounds as B3. pose proof sqrt23_bounds as B23.
    assert (D1 : 0 <= 1 * sqrt (2 / 3)) by lra. assert (D2 : 0 <= 1 * sqrt 3 / 2) by lra.
    destruct (floop_mem _ _ _ _ (fun x o => floop_fine RA _ _ _ _ _ _ _ (fun x' o' => floop_fine RA _ _ _ _ _ _ _ (fun x1 o1 => place_fine _ _ _ _))) _ _ _ _ 0%nat D1 EP) as (Q & EQ & IQ); [cbn; lra|].
    destruct (floop_mem _ _ _ _ (fun x o => floop_fine RA _ _ _ _ _ _ _ (fun x1 o1 => place_fine _ _ _ _)) _ _ _ _ 0%nat D2 EQ) as (T & ET & IT); [cbn; lra|].
    cbn [xs_at os_at] in ET. assert (Hi2 : 0 <= IZR (Z.of_nat i) <= 1) by (split; apply IZR_le; lia).
    destruct (floop_mem _ _ _ _ (fun x1 o1 => place_fine _ _ _ _) _ _ _ _ i (Rlt_le _ _ Rlt_0_1) ET) as (U & EU & IU); [rewrite xs_at_R; lra|].
    rewrite xs_at_R in EU. replace (0 + (0 - 0) * 1 / 2 + IZR (Z.of_nat i) * 1) with (IZR (Z.of_nat i)) in EU by field. replace (0 - 0 * (1 * sqrt 3 / 2) / 3) with 0 in EU by field.
    assert (HI : in_domain_3d RA (IZR (Z.of_nat i)) 0 0 (fun _ => 0) (fun _ => 7 / 2) 0 = true).
    { unfold in_domain_3d, b_tol. cbn [a_lt a_sub a_mul a_div a_ofz RA Z.eqb]. repeat (apply andb_true_intro; split); try reflexivity; apply Rlt_b_true; lra. }
    rewrite HI in EU. rewrite (emits_unique _ _ _ EU (place_emits true (IZR (Z.of_nat i)) 0 0)) in IU. apply IQ, IT, IU. left. reflexivity. }
  pose proof (M 0%nat ltac:(lia)) as M0. pose proof (M 1%nat ltac:(lia)) as M1. cbn in M0, M1.
  destruct P as [|p [|q P]]; [destruct M0 | | cbn [length]; lia].
  exfalso. destruct M0 as [M0|[]], M1 as [M1|[]]. rewrite M0 in M1. injection M1 as E. lra.
Qed.
