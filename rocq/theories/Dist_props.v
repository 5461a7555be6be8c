(** C61, the search for neighbours on several ranks. *)
From Coq Require Import Sorted.
From Verif Require Import Base Key_model HCell_model BuildTree_model BuildTree_lemmas BuildTree_props Vec Geometry_model Cofm_model
  Share_model Share_lemmas Share_final Share_world Share_reach Share_props Comms_model Dist_model Dist_lemmas Dist_reach Dist_refuted.
From Verif Require Comms_lemmas Comms_props.
Local Open Scope N_scope.

(** On any rank, in any state of the traversals, an attempt to find the neighbours of the
    targets [nbs] either meets an empty node or ends with the lists that the same search
    gives in the tree of one process; without empty nodes it ends.  It never fails. *)
Theorem C61_search {Ent} (eb : Ent -> body) dim (f : N -> list Ent -> list cofm -> cofm) pss one l fuel dn al w s r cur nbs :
  spread dim pss -> build_all dim f [concat pss] = Some [one] -> build_all dim f pss = Some l ->
  steps dim (length pss) false keeps fuel (g_init (tables l) dn al w) s -> (r < length pss)%nat ->
  exists nbs1, dist_queue eb dim (look_s (k_tab one)) 66 cur [key_root] nbs = Some (Some nbs1) /\
    (dist_queue eb dim (look_r (g_tab s r)) 66 cur [key_root] nbs = Some (Some nbs1) \/
     (dist_queue eb dim (look_r (g_tab s r)) 66 cur [key_root] nbs = Some None /\
      exists k c, g_tab s r k = Some c /\ empty_node dim c = true)).
Proof.
  intros HS E1 El R Hr. destruct (Share_props.reach_inv dim f pss one l E1 El fuel dn al w s HS R) as (O1 & HI & Hn). destruct HS as (Hdim & _ & Hne & Hsort & Hf). apply full_keys_full in Hf.
  destruct (search_one dim Hdim f pss Hne Hsort Hf Hn (k_tab one) O1 eb cur nbs) as (nbs1 & E). exists nbs1. split; [exact E|].
  destruct (search_sim dim Hdim f pss Hne Hsort Hf Hn (k_tab one) O1 s HI r Hr eb cur nbs) as ([nbs2|] & E2 & S2 & Z2); [left; rewrite (S2 nbs2 eq_refl) in E; injection E as <-; exact E2|]. right. split; [exact E2|].
  assert (QL : forall lk q n0, (exists x n1, dist_level eb dim lk cur q n0 = Some (true, x, n1)) -> exists k w m, lk k = Some (w, inr m) /\ is_empty_node dim w = true).
  { intros lk. induction q as [|h q IH]; intros n0 (x & n1 & H); [discriminate|]. cbn [dist_level] in H. destruct (dist_cell eb dim lk cur h n0) as [[[b1 q1] n2]|] eqn:Ec; [|discriminate]. destruct (dist_level eb dim lk cur q n2) as [[[b2 q2] n3]|] eqn:E3; [|discriminate].
    injection H as Hb _ _. destruct b2; [apply (IH n2); do 2 eexists; exact E3|]. destruct b1; [|discriminate]. unfold dist_cell in Ec. destruct (lk h) as [[w0 [e|m]]|] eqn:Eh; [| |discriminate]; cbn [fst snd] in Ec.
    - match type of Ec with (if ?b then _ else _) = _ => destruct b; discriminate end.
    - match type of Ec with (if ?b then _ else _) = _ => destruct b; [discriminate|] end. destruct (existsb _ n0); [|discriminate]. destruct (is_empty_node dim w0) eqn:Ee; [|destruct (dkids dim lk h w0 (digits dim)); discriminate]. exists h, w0, m. tauto. }
  assert (QQ : forall fu q n0, dist_queue eb dim (look_r (g_tab s r)) fu cur q n0 = Some None -> exists k w m, look_r (g_tab s r) k = Some (w, inr m) /\ is_empty_node dim w = true).
  { induction fu as [|g IH]; intros q n0 H; [destruct q; discriminate|]. destruct q as [|h q]; [discriminate|]. cbn [dist_queue] in H. destruct (dist_level eb dim _ cur (h :: q) n0) as [[[b q1] n1]|] eqn:E3; [|discriminate]. destruct b; [|apply (IH _ _ H)]. apply (QL _ (h :: q) n0). exists q1, n1. exact E3. }
  destruct (QQ _ _ _ E2) as (k & w0 & m & Ek & Ew). apply (look_rank dim Hdim f pss Hne Hsort Hf Hn (k_tab one) O1 s HI r Hr) in Ek. destruct Ek as (c & Hc & <- & Hd). exists k, c. split; [exact Hc|].
  destruct (state_cell dim Hdim f pss Hne Hsort Hf Hn (k_tab one) O1 s HI r k c Hr Hc) as (c1 & _ & Ed & En & _). unfold empty_node. rewrite En, <- Ed, Hd. exact Ew.
Qed.

(** The lists themselves need not be those of one process: a rank forms other groups of
    targets.  Here one process takes all three particles as one group and finds particle 1
    for particle 0, at distance 1/2 <= 8/10, the larger radius; rank 0 looks for the
    neighbours of particle 0 alone and drops the node of particles 1 and 2. *)
Theorem C61_lists_refuted : exists (pss : list (list (N * nat))) eb one l st0 fuel out1 out0 a e nb1 nb0,
  spread 1 pss /\ (forall i, (0 < b_mass (eb i) /\ 0 < b_rad (eb i))%R) /\
  build_all 1 (cofm_of eb 1) [concat pss] = Some [one] /\ build_all 1 (cofm_of eb 1) pss = Some l /\ nth_error l 0 = Some st0 /\
  dist_sph eb 1 (look_s (k_tab one)) fuel = Some (Some out1) /\ dist_sph eb 1 (look_s (k_tab st0)) fuel = Some (Some out0) /\
  In (a, nb1) out1 /\ In (a, nb0) out0 /\ In e nb1 /\ ~ In e nb0.
Proof.
  destruct (built_one (cofm_of eb3 1)) as (one & B1 & L1 & L2 & L3 & L6 & L7). destruct (built_two (cofm_of eb3 1)) as (st0 & st1 & B2 & M1 & M2 & M3).
  exists pss3, eb3, one, [st0; st1], st0, 9%nat. do 2 eexists. exists 0%nat, 1%nat. do 2 eexists. split; [apply spread3|]. split; [intros i; split; [destruct i as [|[|i]]; cbn; lra | apply eb3_rad]|]. split; [exact B1|]. split; [exact B2|]. split; [reflexivity|].
  split; [apply search_whole; assumption|]. split; [apply search_rank0; assumption|]. split; [right; right; left; reflexivity|]. split; [left; reflexivity|]. split; [right; left; reflexivity|]. intros [X|[]]. discriminate.
Qed.

(** *** Examples *)
(** four ranks, dimension 1, the summary of a node is the sum over its particles *)
Definition ex_f (_ : N) (es ss : list N) : N := fold_left N.add (es ++ ss) 0.
Definition ex_b : N := 2 ^ 63.
Definition ex_pss : list (list (N * N)) :=
  [[(ex_b, 1); (ex_b + 2 ^ 60, 10)]; [(ex_b + 2 ^ 60 + 2 ^ 59, 100); (ex_b + 2 ^ 61, 1000)]; [(ex_b + 2 ^ 61 + 2 ^ 59, 10000)]; [(ex_b + 2 ^ 62, 100000); (ex_b + 2 ^ 62 + 5, 1000000)]].
Lemma ex_spread : spread 1 ex_pss.
Proof.
  split; [left; reflexivity|]. split; [exists 2%nat; reflexivity|]. split; [intros ps [<-|[<-|[<-|[<-|[]]]]]; discriminate|]. split.
  - unfold ex_pss. cbn [concat app map fst]. repeat constructor; reflexivity.
  - unfold ex_pss. cbn [concat app map fst]. repeat constructor; vm_compute; congruence.
Qed.
(** C61_share, C61_cells: rank 3 knows node 9, shared by ranks 0 and 1, with the sum 110 of
    both their particles, though none is its own; rank 0 knows node 3 of rank 3 without
    children, asks for it and gets them. *)
Definition ex_acts : list Comms_props.act := [Comms_props.AStart 0; Comms_props.AStart 3; Comms_props.AReq 0 3 [3]; Comms_props.ARecv 3 0; Comms_props.ARecv 0 3].
Definition ex_init (l : list (rank_st N N)) : gstate (option (N + N)) := g_init (tables l) (fun _ _ => false) (fun _ => false) (fun _ => []).
Definition ex_look (s : gstate (option (N + N))) (r : nat) (k : N) : option (N * option (N + N) * nat) := match g_tab s r k with Some c => Some (r_word c, r_data c, r_owner c) | None => None end.
Definition ex_get (x : option (list (rank_st N N))) (g : gstate (option (N + N)) -> option (gstate (option (N + N)))) (l : list (nat * N)) : option (list (option (N * option (N + N) * nat))) :=
  match x with Some y => match g (ex_init y) with Some s => Some (map (fun z => ex_look s (fst z) (snd z)) l) | None => None end | None => None end.
Example C61_share_example : spread 1 ex_pss /\
  ex_get (build_all 1 ex_f ex_pss) (fun s => Some s) [(0%nat, 1); (0%nat, 3); (0%nat, 6); (3%nat, 9); (3%nat, 6)] =
    Some [Some (11, Some (inr 1111111), 0%nat); Some (8, Some (inr 1100000), 3%nat); None; Some (11, Some (inr 110), 0%nat); Some (1, Some (inr 1100000), 3%nat)] /\
  ex_get (build_all 1 ex_f ex_pss) (fun s => Comms_props.exec 1 4 false 100 s ex_acts) [(0%nat, 3); (0%nat, 6)] = Some [Some (57, Some (inr 1100000), 3%nat); Some (40, Some (inr 1100000), 3%nat)].
Proof. split; [apply ex_spread|]. split; vm_compute; reflexivity. Qed.
Example C61_cells_example : exists one l s c, build_all 1 ex_f [concat ex_pss] = Some [one] /\ build_all 1 ex_f ex_pss = Some l /\
  steps 1 4 false keeps 100 (ex_init l) s /\ g_tab s 0%nat 3 = Some c /\ r_data c = Some (inr 1100000) /\ empty_node 1 c = false.
Proof.
  assert (E1 : match build_all 1 ex_f [concat ex_pss] with Some [_] => true | _ => false end = true) by (vm_compute; reflexivity). destruct (build_all 1 ex_f [concat ex_pss]) as [[|one [|x l]]|]; try discriminate. clear E1. exists one.
  assert (E : match build_all 1 ex_f ex_pss with Some l => match Comms_props.exec 1 4 false 100 (ex_init l) ex_acts with Some s => match g_tab s 0%nat 3 with Some c => Some (r_data c, empty_node 1 c) | None => None end | None => None end | None => None end = Some (Some (inr 1100000), false)) by (vm_compute; reflexivity).
  destruct (build_all 1 ex_f ex_pss) as [l|]; [|discriminate]. destruct (Comms_props.exec 1 4 false 100 (ex_init l) ex_acts) as [s|] eqn:Es; [|discriminate]. exists l, s. destruct (g_tab s 0%nat 3) as [c|] eqn:Ec; [|discriminate]. injection E as E2 E3. exists c.
  split; [reflexivity|]. split; [reflexivity|]. split; [apply (Comms_props.exec_ok 1 4 false 100 keeps ex_acts _ _ Es)|]. split; [reflexivity|]. split; assumption.
Qed.
