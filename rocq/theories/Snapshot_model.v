(** Model of the snapshot files, /repo/mpisph/io.h L470-620: names, the search for
    an iteration, and the removal of old output.  Names are lists of characters
    without the final NUL; sizes of the C buffers are not modelled. *)
From Coq Require Import String Ascii.
From Verif Require Import Base BuildTree_model IO_model.
Local Open Scope Z_scope.

Definition str := list ascii.
Definition ch_eqb (a b : ascii) : bool := if ascii_dec a b then true else false.
Fixpoint starts (p s : str) : bool :=
  match p, s with [], _ => true | a :: p', b :: s' => ch_eqb a b && starts p' s' | _, [] => false end.
(** strstr(s, p) != NULL *)
Fixpoint strstr (s p : str) : bool := starts p s || match s with [] => false | _ :: t => strstr t p end.
Definition str_eqb (a b : str) : bool := if list_eq_dec ascii_dec a b then true else false.
Definition ext : str := list_ascii_of_string ".h5part".
Definition underscore : ascii := "_"%char.
(** '0' + d and c - '0' *)
Definition digit (d : Z) : ascii := ascii_of_N (Z.to_N (48 + d)).
Definition is_digit (c : ascii) : bool := (48 <=? N_of_ascii c)%N && (N_of_ascii c <=? 57)%N.
Definition digit_val (c : ascii) : Z := Z.of_N (N_of_ascii c) - 48.

(** "%05d" for a non-negative int *)
Fixpoint dec_digits (fuel : nat) (n : Z) : str :=
  match fuel with O => [] | S k => (if n <? 10 then [] else dec_digits k (n / 10)) ++ [digit (n mod 10)] end.
Definition dec5 (n : Z) : str := let d := dec_digits 20 n in repeat (digit 0) (5 - length d) ++ d.
(** L552, L890: "%s_%05d.h5part" *)
Definition snapshot_name (prefix : str) (step : Z) : str := prefix ++ underscore :: dec5 step ++ ext.

(** filename[i]; None: in front of the string *)
Definition char_at (s : str) (i : Z) : option ascii := if i <? 0 then None else nth_error s (Z.to_nat i).
(** L487-493: the loop for(i = imx; i > imn; --i), five rounds; Some None: return -1 *)
Fixpoint read_digits (rounds : nat) (s : str) (i snum t : Z) : option (option Z) :=
  match rounds with
  | O => Some (Some snum)
  | S k => c <- char_at s i ;;
      if is_digit c then read_digits k s (i - 1) (snum + t * digit_val c) (t * 10) else Some None
  end.
(** H5P_isPrefixSnapshot, L480-504; None: a read in front of the string *)
Definition is_prefix_snapshot (fprefix filename : str) : option Z :=
  if negb (strstr filename fprefix) then Some (-1) else
  if negb (strstr filename ext) then Some (-1) else
  let imx := Z.of_nat (length filename) - 8 in
  let imn := imx - 5 in
  r <- read_digits 5 filename imx 0 1 ;;
  match r with
  | None => Some (-1)
  | Some snum =>
      c <- char_at filename imn ;;
      if negb (ch_eqb c underscore) then Some (-1) else
      if str_eqb fprefix (firstn (Z.to_nat imn) filename) then Some snum else Some (-1)
  end.

(** A directory: its entries in the order of readdir, with the content of the files *)
Definition dir := list (str * h5).
Fixpoint find_file (n : str) (d : dir) : option h5 :=
  match d with [] => None | (m, f) :: r => if str_eqb n m then Some f else find_file n r end.
Inductive outcome := Step (k : Z) | Stop | Undef.
(** H5P_findIterationSnapshot, L523-578: [step] is the value of the local variable;
    Stop: FULLSTOP (a file without its step, L555, or without the attribute, L565; a
    file that is not there is created empty by H5P_openFile) *)
Fixpoint find_iteration_loop (d : dir) (base : str) (iteration : Z) (entries : list str) (step : Z) : outcome :=
  match entries with
  | [] => Step step
  | e :: r =>
      match is_prefix_snapshot base e with
      | None => Undef
      | Some s =>
          if s <? 0 then find_iteration_loop d base iteration r s else
          match find_file (snapshot_name base s) d with
          | None => Stop
          | Some f =>
              match find_step s (f_steps f) with
              | None => Stop
              | Some g =>
                  match find_name "iteration"%string (g_attr g) with
                  | None => Stop
                  | Some v => if v =? iteration then Step s else find_iteration_loop d base iteration r s
                  end
              end
          end
      end
  end.
Definition find_iteration_snapshot (d : dir) (base : str) (iteration : Z) : outcome :=
  find_iteration_loop d base iteration (map fst d) (-1).

(** H5P_removePrefix, L588-628, with a file per iteration: a file is a directory and
    a name; the names are those of the output directory, remove() acts on the
    working directory [cwd] *)
Definition path : Type := str * str.
Definition path_eqb (a b : path) : bool := str_eqb (fst a) (fst b) && str_eqb (snd a) (snd b).
Definition remove_file (n : path) (fs : list path) : list path := filter (fun m => negb (path_eqb n m)) fs.
Fixpoint remove_loop (base : str) (threshold : Z) (entries : list str) (cwd : str) (fs : list path) : option (list path) :=
  match entries with
  | [] => Some fs
  | e :: r => s <- is_prefix_snapshot base e ;;
      remove_loop base threshold r cwd (if threshold <? s then remove_file (cwd, e) fs else fs)
  end.
Definition remove_prefix (outdir base : str) (threshold : Z) (cwd : str) (fs : list path) : option (list path) :=
  remove_loop base threshold (map snd (filter (fun f => str_eqb (fst f) outdir) fs)) cwd fs.
