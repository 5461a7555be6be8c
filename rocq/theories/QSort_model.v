(** Model of the sample sort, /repo/mpisph/tree_colorer.h mpi_qsort (L110-199) and
    generate_splitters_samples (L503-603).  bodies_system.h does not call it any
    more; it stays a public member of tree_colorer.

    The number of samples a rank wants (L519, a double product) is an arbitrary
    number [want r]; the sample positions (L526) are computed exactly instead of
    in doubles.  A failed assertion and an access outside a vector are None. *)
From Verif Require Import Base BuildTree_model Exchange_model PSort_model.

Section QSort.
Context (kmin kmax : N) (size total : nat) (want : nat -> nat) (sortA : list sbody -> list sbody).

(** L521-523 *)
Definition nsample (data : nat -> list sbody) (r : nat) : nat := Nat.min (length (data r)) (want r).
(** L525-529 *)
Definition samples (data : nat -> list sbody) (r : nat) : option (list sbody) :=
  all_some (map (fun i => nth_error (data r) (length (data r) * (i + 1) / (nsample data r + 1))) (seq 0 (nsample data r))).
(** L532-590, the root: gather, sort, choose.  L550-552: the buffer has no room
    for more than [total] samples. *)
Definition splitters (data : nat -> list sbody) : option (list N) :=
  per_rank <- all_some (map (samples data) (seq 0 size)) ;;
  let gathered := concat per_rank in
  let nkeys := Nat.min total (length gathered) in
  if length gathered <=? total then
    let master := sortA gathered in
    chosen <- all_some (map (fun i => nth_error master (nkeys / size * (i + 1))) (seq 0 (size - 1))) ;;
    if forallb (fun b => (kmin <? sb_key b)%N && (sb_key b <? kmax)%N) chosen
    then Some (kmin :: map sb_key chosen ++ [kmax]) else None
  else None.

(** L144-156: counting the bodies of each bucket; [fuel] bounds the passes. *)
Fixpoint incr (i : nat) (l : list Z) : option (list Z) :=
  match l, i with
  | [], _ => None
  | c :: r, O => Some ((c + 1)%Z :: r)
  | c :: r, S j => s <- incr j r ;; Some (c :: s)
  end.
Fixpoint bucket (fuel : nat) (sp : list N) (bodies : list sbody) (cur : nat) (scount : list Z) : option (list Z) :=
  match bodies with
  | [] => Some scount
  | b :: rest =>
    match fuel with
    | O => None
    | S f =>
      lo <- nth_error sp cur ;;
      hi <- nth_error sp (S cur) ;;
      if (lo <=? sb_key b)%N && (sb_key b <? hi)%N
      then s <- incr cur scount ;; bucket f sp rest cur s
      else bucket f sp bodies (S cur) scount
    end
  end.
(** L136-159 on one rank: the counts it sends *)
Definition scount (sp : list N) (bodies : list sbody) : option (list Z) :=
  s <- bucket (length bodies + size) sp bodies 0 (repeat 0%Z size) ;;
  if (fold_left Z.add s 0 =? Z.of_nat (length bodies))%Z then Some s else None.

(** L110-199 with the exchange (L163, mpi_alltoallv_p2p of Exchange_model) left as
    a transition system: what all ranks give to it *)
Definition qsort_exchange (vec : nat -> list sbody) : option (list (list Z) * list (list sbody)) :=
  let data := fun r => sortA (vec r) in
  sp <- splitters data ;;
  counts <- all_some (map (fun r => scount sp (data r)) (seq 0 size)) ;;
  Some (counts, map data (seq 0 size)).
(** L165-182: what a rank makes of its receive buffer *)
Definition qsort_finish (buf : list (option sbody)) : option (list sbody) :=
  got <- all_some buf ;; Some (sortA got).
End QSort.
