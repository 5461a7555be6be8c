(** Model of the particle files, /repo/mpisph/io.h: how the particles are split
    over the ranks, the datasets of one step, ids for files without them.

    A value of a dataset is an integer: an int, an int64_t or the bits of a double
    (the bits of 0. are 0).  HDF5 and MPI-IO are modelled by their effect on the
    datasets: a dataset is an array of values, a collective write puts each rank's
    block at its offset, creating an object that exists fails and leaves it alone,
    and reading a dataset or a block that does not exist fails. *)
From Coq Require Import String Ascii.
From Verif Require Import Base BuildTree_model.
Local Open Scope Z_scope.

(** The fields of a particle that io.h touches (body.h L222-251, tree_types.h
    L378-383); component d of the vectors.  [Fa] is acceleration + g_acceleration. *)
Inductive fld := Fx (d : nat) | Fv (d : nat) | Fa (d : nat) | Fm | Frho | Fh | FP | Fu | Fid | Fdt | Ftype | Fstate
  | Falpha | Fdivv | Fddivv | Ftrigger | Fxi | FtraceSS | FgradV | Fneighbors.
Definition fld_eq_dec (a b : fld) : {a = b} + {a <> b}.
Proof. decide equality; apply Nat.eq_dec. Defined.
Definition hbody := fld -> Z.
Definition setf (b : hbody) (f : fld) (v : Z) : hbody := fun g => if fld_eq_dec g f then v else b g.

(** One step (group) of a file: attributes and datasets by name *)
Record group := Group { g_attr : list (string * Z); g_data : list (string * list Z) }.
Record h5 := H5 { f_dim : option Z; f_steps : list (Z * group) }.
Fixpoint find_name {A} (n : string) (l : list (string * A)) : option A :=
  match l with [] => None | (m, a) :: r => if String.eqb n m then Some a else find_name n r end.
Fixpoint find_step (s : Z) (l : list (Z * group)) : option group :=
  match l with [] => None | (t, a) :: r => if s =? t then Some a else find_step s r end.

(** ** H5P_setNumParticles, L430-450 *)
(** L441-442: offcount[i] += offcount[i-1] *)
Fixpoint psums (acc : Z) (l : list Z) : list Z := match l with [] => [] | x :: r => (acc + x) :: psums (acc + x) r end.
(** L437-443: the element that is never written, and the 0 put in front *)
Definition offcount (sizes : list Z) : list Z := 0 :: psums 0 sizes ++ [0].
(** L445-446 *)
Definition io_nparticles (sizes : list Z) : Z := nth (length sizes) (offcount sizes) 0.
Definition io_offset (sizes : list Z) (rank : nat) : Z := nth rank (offcount sizes) 0.
(** L793-797: particles of a rank when n are read *)
Definition nproc (n : Z) (size rank : nat) : Z := n / Z.of_nat size + (if Z.of_nat rank <? n mod Z.of_nat size then 1 else 0).
Definition nprocs (n : Z) (size : nat) : list Z := map (nproc n size) (seq 0 size).

(** ** Writing *)
(** L157-169: the block of a rank goes to offset [off]; None: past the end *)
Definition put_block (a : list Z) (off : Z) (d : list Z) : option (list Z) :=
  if (0 <=? off) && (off + Z.of_nat (length d) <=? Z.of_nat (length a))
  then Some (firstn (Z.to_nat off) a ++ d ++ skipn (Z.to_nat off + length d) a) else None.
Fixpoint put_blocks (a : list Z) (sizes : list Z) (rank : nat) (ds : list (list Z)) : option (list Z) :=
  match ds with [] => Some a | d :: r => a' <- put_block a (io_offset sizes rank) d ;; put_blocks a' sizes (S rank) r end.
(** H5P_writeDataset, L137-178: the dataset is created with the global size (zeros);
    when there is one of that name already, nothing is written *)
Definition write_dataset (g : group) (name : string) (ds : list (list Z)) : option group :=
  match find_name name (g_data g) with
  | Some _ => Some g
  | None =>
      let sizes := map (fun d => Z.of_nat (length d)) ds in
      a <- put_blocks (repeat 0 (Z.to_nat (io_nparticles sizes))) sizes 0 ds ;;
      Some (Group (g_attr g) (g_data g ++ [(name, a)]))
  end.
(** L236-254 *)
Definition write_attr (g : group) (name : string) (v : Z) : group :=
  match find_name name (g_attr g) with Some _ => g | None => Group (g_attr g ++ [(name, v)]) (g_data g) end.

Local Open Scope string_scope.
(** The datasets in the order of outputDataHDF5, L927-1070, INTERNAL_ENERGY set:
    name and value for a body on a rank *)
Definition comp (dim : nat) (F : nat -> fld) (d : nat) : nat -> hbody -> Z := fun _ b => if (d <? dim)%nat then b (F d) else 0.
Definition outputs (dim : nat) : list (string * (nat -> hbody -> Z)) :=
  [("x", comp dim Fx 0); ("y", comp dim Fx 1); ("z", comp dim Fx 2);
   ("vx", comp dim Fv 0); ("vy", comp dim Fv 1); ("vz", comp dim Fv 2);
   ("ax", comp dim Fa 0); ("ay", comp dim Fa 1); ("az", comp dim Fa 2); ("gradV", fun _ b => b FgradV);
   ("h", fun _ b => b Fh); ("rho", fun _ b => b Frho); ("u", fun _ b => b Fu);
   ("P", fun _ b => b FP); ("m", fun _ b => b Fm); ("dt", fun _ b => b Fdt); ("traceSS", fun _ b => b FtraceSS);
   ("id", fun _ b => b Fid); ("type", fun _ b => b Ftype);
   ("alpha", fun _ b => b Falpha); ("divergenceV", fun _ b => b Fdivv); ("dDivVdt", fun _ b => b Fddivv);
   ("trigger", fun _ b => b Ftrigger); ("xi", fun _ b => b Fxi); ("state", fun _ b => b Fstate);
   ("rank", fun r _ => Z.of_nat r); ("neighbors", fun _ b => b Fneighbors)].
Definition column (ranks : list (list hbody)) (v : nat -> hbody -> Z) : list (list Z) :=
  map (fun rl => map (v (fst rl)) (snd rl)) (combine (seq 0 (length ranks)) ranks).
Fixpoint write_all (g : group) (ranks : list (list hbody)) (os : list (string * (nat -> hbody -> Z))) : option group :=
  match os with [] => Some g | (n, v) :: r => g' <- write_dataset g n (column ranks v) ;; write_all g' ranks r end.
(** H5P_setStep, L121-134: the group of the step, new if there is none *)
Definition get_step (f : h5) (s : Z) : group := match find_step s (f_steps f) with Some g => g | None => Group [] [] end.
Definition put_step (f : h5) (s : Z) (g : group) : h5 := H5 (f_dim f) ((s, g) :: f_steps f).
(** outputDataHDF5, L875-1083, on the file [f] *)
Definition write_step (dim : nat) (separate : bool) (f : h5) (step iteration time dt : Z) (ranks : list (list hbody)) : option h5 :=
  let f := if (step =? 0)%Z || separate then H5 (match f_dim f with Some d => Some d | None => Some (Z.of_nat dim) end) (f_steps f) else f in
  let g := write_attr (write_attr (write_attr (get_step f step) "time" time) "iteration" iteration) "timestep" dt in
  g' <- write_all g ranks (outputs dim) ;; Some (put_step f step g').

(** ** Reading *)
(** H5P_readDataset, L256-291: None when it fails *)
Definition read_block (g : group) (name : string) (off cnt : Z) : option (list Z) :=
  a <- find_name name (g_data g) ;;
  if (0 <=? off)%Z && (off + cnt <=? Z.of_nat (length a))%Z then Some (firstn (Z.to_nat cnt) (skipn (Z.to_nat off) a)) else None.
(** L338-341: the generated ids *)
Definition gen_ids (n : Z) (size rank : nat) (cnt : Z) : list Z :=
  map (fun i => n / Z.of_nat size * Z.of_nat rank + 1 + Z.of_nat i)%Z (seq 0 (Z.to_nat cnt)).
(** L342-343 on the last rank *)
Definition gen_assert (n : Z) (size rank : nat) (ids : list Z) : bool :=
  if (S rank =? size)%nat then (n =? last ids 0)%Z && negb (length ids =? 0)%nat else true.
(** What inputDataHDF5 reads, L844-858: dataset and field *)
Definition inputs (dim : nat) : list (string * fld) :=
  [("x", Fx 0)] ++ (if (2 <=? dim)%nat then [("y", Fx 1)] else []) ++ (if (3 <=? dim)%nat then [("z", Fx 2)] else []) ++
  [("vx", Fv 0)] ++ (if (2 <=? dim)%nat then [("vy", Fv 1)] else []) ++ (if (3 <=? dim)%nat then [("vz", Fv 2)] else []) ++
  [("m", Fm); ("rho", Frho); ("h", Fh); ("P", FP); ("u", Fu); ("id", Fid); ("dt", Fdt); ("type", Ftype); ("state", Fstate)].
Fixpoint zip_set (f : fld) (l : list hbody) (d : list Z) : list hbody :=
  match l, d with b :: r, v :: d' => setf b f v :: zip_set f r d' | _, _ => l end.
(** H5P_bodiesReadDataset, L300-427: the buffer is zeroed, so a dataset that cannot
    be read gives 0, except for the ids; None: the assertion of L343 *)
Definition read_field (g : group) (n : Z) (size rank : nat) (off cnt : Z) (l : list hbody) (nf : string * fld) : option (list hbody) :=
  match read_block g (fst nf) off cnt with
  | Some d => Some (zip_set (snd nf) l d)
  | None =>
      if String.eqb (fst nf) "id" then
        let ids := gen_ids n size rank cnt in
        if gen_assert n size rank ids then Some (zip_set Fid l ids) else None
      else Some (zip_set (snd nf) l (repeat 0%Z (Z.to_nat cnt)))
  end.
Fixpoint read_fields (g : group) (n : Z) (size rank : nat) (off cnt : Z) (l : list hbody) (fs : list (string * fld)) : option (list hbody) :=
  match fs with [] => Some l | nf :: r => l' <- read_field g n size rank off cnt l nf ;; read_fields g n size rank off cnt l' r end.
(** L793-858 on one rank; [init] are the uninitialised members of the new bodies *)
Definition read_rank (dim : nat) (g : group) (n : Z) (size rank : nat) (init : nat -> hbody) : option (list hbody) :=
  let off := io_offset (nprocs n size) rank in
  let cnt := nproc n size rank in
  read_fields g n size rank off cnt (map init (seq 0 (Z.to_nat cnt))) (inputs dim).
Fixpoint all_ranks (F : nat -> option (list hbody)) (k m : nat) : option (list (list hbody)) :=
  match m with O => Some [] | S m' => l <- F k ;; r <- all_ranks F (S k) m' ;; Some (l :: r) end.
(** L785-809: the step must exist, the number of particles is that of "x", and the
    dimension, if recorded, must be right (assertion) *)
Definition read_step (dim : nat) (f : h5) (step : Z) (size : nat) (init : nat -> nat -> hbody) : option (list (list hbody)) :=
  g <- find_step step (f_steps f) ;;
  x <- find_name "x" (g_data g) ;;
  if match f_dim f with Some d => (d =? Z.of_nat dim)%Z | None => true end
  then all_ranks (fun r => read_rank dim g (Z.of_nat (length x)) size r (init r)) 0 size else None.
(** L818-836: time and time step, only from a restart *)
Definition read_times (f : h5) (step startIteration : Z) (dt0 time0 : Z) : option (Z * Z) :=
  g <- find_step step (f_steps f) ;;
  if (startIteration =? 0)%Z then Some (dt0, time0) else
  Some (match find_name "timestep" (g_attr g) with Some v => v | None => dt0 end,
        match find_name "time" (g_attr g) with Some v => v | None => time0 end).

(** L673-699: search of a single file for an iteration; None: FULLSTOP *)
Fixpoint find_iteration (f : h5) (it : Z) (s : Z) (fuel : nat) : option Z :=
  match fuel with
  | O => None
  | S k =>
      match find_step s (f_steps f) with
      | None => find_iteration f it (s + 1) k
      | Some g => match find_name "iteration" (g_attr g) with
                  | None => None
                  | Some v => if (v =? it)%Z then Some s else find_iteration f it (s + 1) k
                  end
      end
  end.
Definition find_single (f : h5) (it : Z) : option Z := find_iteration f it 0 (N.to_nat 1000000).
