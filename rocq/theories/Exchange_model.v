(** Model of the exchange helpers of /repo/mpisph/utils.h.

    The state of all ranks is modelled together: [counts] is the list over ranks
    of their sendcount vectors, [bufs] the list over ranks of their send buffers.
    [sz] is sizeof(M).  int is 32-bit: overflow of a sum is undefined behaviour
    (None), conversion from size_t wraps.  MPI_Alltoallv, MPI_Allgatherv and the
    point-to-point calls copy bytes from the given displacement of the sender to
    the given displacement of the receiver; segments may arrive in any order. *)
From Verif Require Import Base BuildTree_model.
Local Open Scope Z_scope.

Definition int32_ok (z : Z) : bool := (- 2 ^ 31 <=? z) && (z <? 2 ^ 31).
Definition wrap32 (z : Z) : Z := (z + 2 ^ 31) mod 2 ^ 32 - 2 ^ 31.

(** std::partial_sum on int *)
Fixpoint psum_from (acc : Z) (l : list Z) : option (list Z) :=
  match l with
  | [] => Some []
  | x :: r => let s := acc + x in if int32_ok s then (rest <- psum_from s r ;; Some (s :: rest)) else None
  end.
(** L104-111, L149-152: partial sums with a zero inserted in front *)
Definition offsets (l : list Z) : option (list Z) := p <- psum_from 0 l ;; Some (0 :: p).

(** L117-126, L156-165: x *= sizeof(M); assert(x >= 0) *)
Definition to_bytes (sz z : Z) : option Z := let b := wrap32 (z * sz) in if 0 <=? b then Some b else None.
(** a byte position as an element position; a position inside an element has no
    meaning here *)
Definition elems (sz b : Z) : option nat := if b mod sz =? 0 then Some (Z.to_nat (b / sz)) else None.

Section Exchange.
Context {A : Type}.

(** the elements of a send buffer starting at [off] *)
Definition slice (buf : list A) (off cnt : nat) : option (list A) :=
  if (off + cnt <=? length buf)%nat then Some (firstn cnt (skipn off buf)) else None.
(** writing into the receive buffer, whose elements are None until written *)
Definition put (buf : list (option A)) (off : nat) (s : list A) : option (list (option A)) :=
  if (off + length s <=? length buf)%nat then Some (firstn off buf ++ map Some s ++ skipn (off + length s) buf) else None.

Context (sz : Z) (counts : list (list Z)) (bufs : list (list A)).

(** MPI_Alltoall on the counts, L100-101: what rank i receives from each rank *)
Definition recvcount (i : nat) : list Z := map (fun row => nth i row 0) counts.

(** The elements rank r hands to MPI for rank i: sendbuffer + sendoffsets[i],
    sendcount[i] bytes (L129, L170-172). *)
Definition message (r i : nat) : option (list A) :=
  row <- nth_error counts r ;;
  so <- offsets row ;;
  ob <- to_bytes sz (nth i so 0) ;;
  cb <- to_bytes sz (nth i row 0) ;;
  buf <- nth_error bufs r ;;
  o <- elems sz ob ;;
  c <- elems sz cb ;;
  slice buf o c.

(** One segment of rank i's receive buffer: recvbuffer + recvoffsets[r]
    (L130, L177-179). *)
Definition receive (i : nat) (ro : list Z) (buf : list (option A)) (r : nat) : option (list (option A)) :=
  m <- message r i ;;
  ob <- to_bytes sz (nth r ro 0) ;;
  cb <- to_bytes sz (nth r (recvcount i) 0) ;;
  o <- elems sz ob ;;
  c <- elems sz cb ;;
  if (length m =? c)%nat then put buf o m else None.
Fixpoint receive_all (i : nat) (ro : list Z) (order : list nat) (buf : list (option A)) : option (list (option A)) :=
  match order with
  | [] => Some buf
  | r :: rest => b <- receive i ro buf r ;; receive_all i ro rest b
  end.

(** L89-131, mpi_alltoallv: rank i's receive buffer when the segments arrive in
    the given order *)
Definition alltoallv (i : nat) (order : list nat) : option (list (option A)) :=
  ro <- offsets (recvcount i) ;;
  receive_all i ro order (repeat None (Z.to_nat (last ro 0))).

(** L46-78, mpi_allgatherv: [sizes] are the send.size() of the ranks; the byte
    counts are converted from size_t, their sums are int. *)
Definition allgatherv (order : list nat) : option (list (option A)) :=
  let sizes := map (fun b => Z.of_nat (length b)) bufs in
  let count_byte := map (fun c => wrap32 (c * sz)) sizes in
  if forallb (fun c => int32_ok c) sizes && forallb (fun c => 0 <=? c) count_byte then
    offset_byte <- offsets count_byte ;;
    let total := fold_left Z.add sizes 0 in
    let step := fun (ob : option (list (option A))) r =>
      b <- ob ;; sb <- nth_error bufs r ;;
      o <- elems sz (nth r offset_byte 0) ;;
      c <- elems sz (nth r count_byte 0) ;;
      m <- slice sb 0 c ;; put b o m in
    fold_left step order (Some (repeat None (Z.to_nat total)))
  else None.

(** ** mpi_alltoallv_p2p, L136-184: the program of one rank posts its sends, then
    for i = 0, 1, ... receives from i and waits for its own send to i.  The state
    of a rank: not started, at position i before the receive or before the wait
    (i = size is the end), and its receive buffer. *)
Inductive pc := Start | AtRecv (i : nat) | AtWait (i : nat).
Record pstate := PSt { p_pc : nat -> pc; p_buf : nat -> list (option A) }.
Definition set_pc (s : pstate) (r : nat) (c : pc) : pstate :=
  PSt (fun k => if Nat.eqb k r then c else p_pc s k) (p_buf s).
Definition set_buf (s : pstate) (r : nat) (b : list (option A)) : pstate :=
  PSt (p_pc s) (fun k => if Nat.eqb k r then b else p_buf s k).
Definition started (s : pstate) (r : nat) : Prop := p_pc s r <> Start.
(** rank i has received the message of rank r *)
Definition received (s : pstate) (r i : nat) : Prop :=
  match p_pc s i with Start => False | AtRecv p => (r < p)%nat | AtWait p => (r <= p)%nat end.
Definition cnt (r i : nat) : Z := nth i (nth r counts []) 0.
(** [eager r i]: MPI buffers the message of r for i, so that its send completes
    before the receive. *)
Inductive pstep (eager : nat -> nat -> bool) : pstate -> pstate -> Prop :=
| ps_start s r : (r < length counts)%nat -> p_pc s r = Start -> pstep eager s (set_pc s r (AtRecv 0))
| ps_recv s r i ro b : (r < length counts)%nat -> (i < length counts)%nat -> p_pc s r = AtRecv i -> cnt i r <> 0 -> started s i ->
    offsets (recvcount r) = Some ro -> receive r ro (p_buf s r) i = Some b ->
    pstep eager s (set_buf (set_pc s r (AtWait i)) r b)
| ps_norecv s r i : (r < length counts)%nat -> (i < length counts)%nat -> p_pc s r = AtRecv i -> cnt i r = 0 ->
    pstep eager s (set_pc s r (AtWait i))
| ps_wait s r i : (r < length counts)%nat -> p_pc s r = AtWait i -> cnt r i = 0 \/ eager r i = true \/ received s r i ->
    pstep eager s (set_pc s r (AtRecv (S i))).
(** L149-155: the receive buffer is resized before the exchange *)
Definition pinit : pstate :=
  PSt (fun _ => Start) (fun r => match offsets (recvcount r) with Some ro => repeat None (Z.to_nat (last ro 0)) | None => [] end).
Inductive preach (eager : nat -> nat -> bool) : pstate -> Prop :=
| pr_init : preach eager pinit
| pr_step s s' : preach eager s -> pstep eager s s' -> preach eager s'.
Definition pfinal (s : pstate) : Prop := forall r, (r < length counts)%nat -> p_pc s r = AtRecv (length counts).
End Exchange.

(** L187-232, the overload with one buffer per destination: the requests that
    [rank] starts, and those it waits for. *)
Definition nested_started (rank : nat) (sendcount : list Z) : list nat :=
  filter (fun i => negb (nth i sendcount 0 =? 0) && negb (Nat.eqb rank i)) (seq 0 (length sendcount)).
Definition nested_waited (rank : nat) (sendcount : list Z) : list nat :=
  filter (fun i => negb (nth i sendcount 0 =? 0)) (seq 0 (length sendcount)).
