(** Model of the particle orderings and of the parallel sort,
    /repo/mpisph/psort.h, as called from /repo/mpisph/bodies_system.h L189-207.

    All ranks run the same program and the collectives hand every rank the same
    data, so the state of all ranks is modelled together; what is indexed by a
    rank is a function of the rank.  int is unbounded here except in the final
    exchange, which is the one of Exchange_model.  std::sort is any function that
    sorts; std::lower_bound, upper_bound and equal_range return the partition
    points they are specified to return. *)
From Verif Require Import Base BuildTree_model Exchange_model.

(** ** Orderings *)
(** The fields of a particle that the orderings read. *)
Record sbody := SBody { sb_key : N; sb_id : N }.
(** bodies_system.h L197-205, tree_colorer.h L122-130 and L174-182: the lambda *)
Definition body_comp (l r : sbody) : bool :=
  if (sb_key l <? sb_key r)%N then true
  else if (sb_key l =? sb_key r)%N then (sb_id l <? sb_id r)%N
  else false.
(** tree_types.h L364-366, entity::operator< *)
Definition entity_less (l r : sbody) : bool := (sb_key l <=? sb_key r)%N.

(** ** Split::split *)
Fixpoint sumto (n : nat) (f : nat -> nat) : nat := match n with O => O | S k => sumto k f + f k end.
Fixpoint takewhile {B} (p : B -> bool) (l : list B) : list B :=
  match l with [] => [] | x :: r => if p x then x :: takewhile p r else [] end.

(** One active search range: d_ranges[k] on every rank (L67), subdist[k], outleft[k]
    (L74-78) and t_ranges[k] as indices into targets (L68). *)
Record active := Act { dfst : nat -> nat; dsnd : nat -> nat; subdist : nat -> nat; outleft : nat -> nat; tlo : nat; thi : nat }.

Section Split.
Context {A : Type} (comp : A -> A -> bool).
(** [data r]: the sorted local elements of rank r. *)
Context (size : nat) (data : nat -> list A) (dist : nat -> nat).
(** [past r p]: what is found in memory at position p >= size of rank r's array. *)
Context (past : nat -> nat -> A).
(** [perm_sort w l]: std::sort of the indices l by their weights w (L102-103). *)
Context (perm_sort : (nat -> A) -> list nat -> list nat).

(** L48-53 *)
Fixpoint first_zero (k i : nat) : nat :=
  match k with O => i | S k' => if dist i =? 0 then i else first_zero k' (S i) end.
Definition n_real : nat := first_zero size 0.
(** L59-61: targets[t], the sum of dist[0..t] *)
Definition target (t : nat) : nat := sumto (S t) dist.

(** L85-89: mymedians[k] on rank i; nothing checks that the position is inside
    the array *)
Definition read (i p : nat) : A := match nth_error (data i) p with Some x => x | None => past i p end.
Definition median (a : active) (i : nat) : A := read i (dfst a i + subdist a i / 2).

(** L104-114: the rank whose median is the query *)
Fixpoint pick (sub : nat -> nat) (l : list nat) (mid : Z) : option nat :=
  match l with
  | [] => None
  | i :: r =>
    if sub i =? 0 then pick sub r mid
    else let mid' := (mid - Z.of_nat (sub i))%Z in
         if (mid' <=? 0)%Z then Some i else pick sub r mid'
  end.
(** L97-118; None: at(0) of an empty vector throws (L99), or the assertion of
    L116 fails *)
Definition query (a : active) : option A :=
  if n_real =? 0 then None else
  i <- pick (subdist a) (perm_sort (median a) (seq 0 n_real)) (Z.of_nat (sumto size (subdist a) / 2)) ;;
  Some (median a i).

(** L124-130: std::equal_range on rank i, as positions from the start *)
Definition range_of (a : active) (i : nat) : list A := firstn (dsnd a i - dfst a i) (skipn (dfst a i) (data i)).
Definition ind_low (a : active) (q : A) (i : nat) : nat := dfst a i + length (takewhile (fun x => comp x q) (range_of a i)).
Definition ind_high (a : active) (q : A) (i : nat) : nat := dfst a i + length (takewhile (fun x => negb (comp q x)) (range_of a i)).

(** L152-155: lower_bound and upper_bound in the targets of the range *)
Definition split_low (a : active) (v : nat) : nat :=
  tlo a + length (takewhile (fun t => target t <? v) (seq (tlo a) (thi a - tlo a))).
Definition split_high (a : active) (v : nat) : nat :=
  tlo a + length (takewhile (fun t => target t <=? v) (seq (tlo a) (thi a - tlo a))).

(** L162-169: what is left of the excess before rank i, and rank i's amount *)
Fixpoint excess (lo hi : nat -> nat) (e : Z) (i : nat) : Z :=
  match i with
  | O => e
  | S j => let x := excess lo hi e j in
           (x - (Z.min (Z.of_nat (lo j) + x) (Z.of_nat (hi j)) - Z.of_nat (lo j)))%Z
  end.
Definition amount (lo hi : nat -> nat) (e : Z) (i : nat) : nat :=
  Z.to_nat (Z.min (Z.of_nat (lo i) + excess lo hi e i) (Z.of_nat (hi i))).

(** L81-83: the assertion of every rank *)
Fixpoint all_below (n : nat) (p : nat -> bool) : bool := match n with O => true | S k => p k && all_below k p end.

(** L151-201: one active range; the targets it settles with their right ends,
    and the ranges it leaves *)
Definition round1 (a : active) : option (list (nat * (nat -> nat)) * list active) :=
  if all_below size (fun i => (Z.of_nat (subdist a i) =? Z.of_nat (dsnd a i) - Z.of_nat (dfst a i))%Z) then
    q <- query a ;;
    let lo := ind_low a q in
    let hi := ind_high a q in
    let gfirst := sumto size lo in
    let gsecond := sumto size hi in
    let slow := split_low a gfirst in
    let shigh := split_high a gsecond in
    let hits := seq slow (shigh - slow) in
    if forallb (fun t => 0 <? target t) hits then (* assert of L159 *)
      Some (map (fun t => (t, amount lo hi (Z.of_nat (target t) - Z.of_nat gfirst))) hits,
            (if 0 <? slow - tlo a then [Act (dfst a) lo (fun i => lo i - outleft a i) (outleft a) (tlo a) slow] else []) ++
            (if 0 <? thi a - shigh then [Act hi (dsnd a) (fun i => outleft a i + subdist a i - hi i) hi shigh (thi a)] else []))
    else None
  else None.

(** right_ends[u][i] as a function *)
Definition write (hits : list (nat * (nat -> nat))) (re : nat -> nat -> nat) : nat -> nat -> nat :=
  fold_left (fun re h => fun u => if u =? S (fst h) then snd h else re u) hits re.
(** one pass of the outer loop, L80-208 *)
Fixpoint round (acts : list active) (re : nat -> nat -> nat) : option (list active * (nat -> nat -> nat)) :=
  match acts with
  | [] => Some ([], re)
  | a :: r =>
    h <- round1 a ;;
    rest <- round r (write (fst h) re) ;;
    Some (snd h ++ fst rest, snd rest)
  end.
Fixpoint loop (fuel : nat) (acts : list active) (re : nat -> nat -> nat) : option (nat -> nat -> nat) :=
  match acts with
  | [] => Some re
  | _ => match fuel with
         | O => None
         | S f => s <- round acts re ;; loop f (fst s) (snd s)
         end
  end.
(** L35-209; right_ends as allocated by psort (L251) and filled by L55 *)
Definition split (fuel : nat) : option (nat -> nat -> nat) :=
  loop fuel [Act (fun _ => 0) (fun i => length (data i)) dist (fun _ => 0) 0 (size - 1)]
       (fun u => if u =? size then dist else fun _ => 0).

(** ** psort, L226-322.  [sortA] is std::sort with comp; [order] the order in
    which the segments arrive. *)
Context (sortA : list A -> list A).
Definition send_counts (re : nat -> nat -> nat) : list (list Z) :=
  map (fun r => map (fun i => Z.of_nat (re (S i) r) - Z.of_nat (re i r))%Z (seq 0 size)) (seq 0 size).
Fixpoint all_some {B} (l : list (option B)) : option (list B) :=
  match l with [] => Some [] | x :: r => y <- x ;; rest <- all_some r ;; Some (y :: rest) end.
(** L282: a negative count is an MPI error *)
Definition psort_rank (re : nat -> nat -> nat) (order : list nat) (r : nat) : option (list A) :=
  let counts := send_counts re in
  if forallb (forallb (fun c => (0 <=? c)%Z)) counts then
    if (fold_left Z.add (recvcount counts r) 0 =? Z.of_nat (length (data r)))%Z then
      buf <- alltoallv 1 counts (map data (seq 0 size)) r order ;;
      out <- all_some buf ;;
      Some (sortA out)
    else None
  else None.
End Split.

Definition psort {A} (comp : A -> A -> bool) (past : nat -> nat -> A) (perm_sort : (nat -> A) -> list nat -> list nat)
    (sortA : list A -> list A) (size : nat) (vec : nat -> list A) (dist : nat -> nat) (fuel : nat) (order : nat -> list nat) (r : nat) : option (list A) :=
  let data := fun r => sortA (vec r) in
  if size =? 1 then Some (data r) else
  re <- split comp size data dist past perm_sort fuel ;;
  psort_rank size data sortA re (order r) r.

(** bodies_system.h L189-207 (update_iteration): every rank asks for the number of
    particles it already has *)
Definition redistribute (past : nat -> nat -> sbody) (perm_sort : (nat -> sbody) -> list nat -> list nat) (sortA : list sbody -> list sbody)
    (size : nat) (vec : nat -> list sbody) (fuel : nat) (order : nat -> list nat) (r : nat) : option (list sbody) :=
  psort body_comp past perm_sort sortA size vec (fun r => length (vec r)) fuel order r.
