(** Model of the printed statistics, /repo/include/diagnostic.h, and of the
    reductions over ranks, /repo/mpisph/utils.h L231-310.  double is modelled by the
    reals, uint64_t by natural numbers without an upper bound.  A file is the list
    of its lines; formatting is not modelled. *)
From Coq Require Import Reals.
From Verif Require Import Base BuildTree_model Vec Cofm_model.
Local Open Scope R_scope.

(** what diagnostic.h reads of a body: getNeighbors(), radius(), getVelocity(); the
    position is here for the properties only *)
Record dbody := DBody { db_nb : N; db_h : R; db_vel : point; db_pos : point }.

(** std::numeric_limits<double>::min(): the smallest normal number *)
Definition dbl_min : R := / 2 ^ 1022.

(** L35-40, L117: the variables of one process; static storage starts as zero *)
Record dglob := DGlob { g_Nmin : N; g_Nmax : N; g_Navg : N; g_ghosts : N; g_hmin : R; g_hmax : R; g_havg : R;
  g_mind : R; g_avgd : R; g_vmin : R; g_vmax : R; g_vavg : R; g_first : bool }.
Definition glob0 : dglob := DGlob 0 0 0 0 0 0 0 0 0 0 0 0 true.

(** utils.h: MPI_Allreduce over the values of the ranks.  The first value starts the
    fold, there is at least one rank. *)
Definition allr {A} (f : A -> A -> A) (d : A) (l : list A) : A := match l with [] => d | x :: r => fold_left f r x end.

(** L47-58: the loop over the local bodies gives N_min, N_max and N_total; None: the
    vector is empty and bodies[0] is read *)
Definition nb_local (g : dglob) (bodies : list dbody) : option (N * N * N) :=
  match bodies with
  | [] => None
  | b :: _ => Some (fold_left (fun s b => N.min s (db_nb b)) bodies (db_nb b),
                    fold_left (fun s b => N.max s (db_nb b)) bodies (g_Nmax g),
                    fold_left (fun s b => s + db_nb b)%N bodies 0%N)
  end.
Fixpoint omap {A B} (f : A -> option B) (l : list A) : option (list B) :=
  match l with [] => Some [] | a :: r => x <- f a ;; y <- omap f r ;; Some (x :: y) end.
(** L47-68 on all ranks; N_total / totalnbodies divides integers *)
Definition neighbors_stats (total : N) (st : list (dglob * list dbody)) : option (list dglob) :=
  if (total =? 0)%N then None else
  loc <- omap (fun x => nb_local (fst x) (snd x)) st ;;
  let mn := allr N.min 0%N (map (fun x => fst (fst x)) loc) in
  let mx := allr N.max 0%N (map (fun x => snd (fst x)) loc) in
  let tot := allr N.add 0%N (map snd loc) in
  let md := allr Rmin 0 (map (fun x => g_mind (fst x)) st) in
  let ad := allr Rplus 0 (map (fun x => g_avgd (fst x)) st) in
  let gh := allr N.max 0%N (map (fun x => g_ghosts (fst x)) st) in
  Some (map (fun x => let g := fst x in
    DGlob mn mx (tot / total) gh (g_hmin g) (g_hmax g) (g_havg g) md (ad / INR (N.to_nat total)) (g_vmin g) (g_vmax g) (g_vavg g) (g_first g)) st).

(** L75-90 *)
Definition h_stats (total : N) (st : list (dglob * list dbody)) : list dglob :=
  let hs (x : dglob * list dbody) := map db_h (snd x) in
  let mn := allr Rmin 0 (map (fun x => fold_left (fun s h => Rmin h s) (hs x) dbl_max) st) in
  let mx := allr Rmax 0 (map (fun x => fold_left (fun s h => Rmax h s) (hs x) dbl_min) st) in
  let tot := allr Rplus 0 (map (fun x => fold_left Rplus (hs x) 0) st) in
  map (fun x => let g := fst x in
    DGlob (g_Nmin g) (g_Nmax g) (g_Navg g) (g_ghosts g) mn mx (tot / INR (N.to_nat total)) (g_mind g) (g_avgd g) (g_vmin g) (g_vmax g) (g_vavg g) (g_first g)) st.

(** L95-107: no reduction over the ranks *)
Definition v_stats (n : nat) (total : N) (st : list (dglob * list dbody)) : list dglob :=
  map (fun x => let g := fst x in let vs := map (fun b => norm n (db_vel b)) (snd x) in
    DGlob (g_Nmin g) (g_Nmax g) (g_Navg g) (g_ghosts g) (g_hmin g) (g_hmax g) (g_havg g) (g_mind g) (g_avgd g)
      (fold_left (fun s v => Rmin v s) vs dbl_max) (fold_left (fun s v => Rmax v s) vs dbl_min)
      (fold_left Rplus vs 0 / INR (N.to_nat total)) (g_first g)) st.

(** The file: the header L132-137 and the lines of L146-156. *)
Inductive dline := DHeader | DRow (iter : Z) (time : R) (g : dglob).
(** What one call of output needs: the iteration, the time and the bodies of every rank. *)
Record dcall := DCall { dc_iter : Z; dc_time : R; dc_ranks : list (list dbody) }.
(** totalnbodies *)
Definition ntotal (ranks : list (list dbody)) : N := N.of_nat (length (concat ranks)).
(** L115-118: due *)
Definition due (every : Z) (c : dcall) : bool := negb ((every <=? 0)%Z || negb (Z.rem (dc_iter c) every =? 0)%Z).
Definition set_first (g : dglob) : dglob :=
  DGlob (g_Nmin g) (g_Nmax g) (g_Navg g) (g_ghosts g) (g_hmin g) (g_hmax g) (g_havg g) (g_mind g) (g_avgd g) (g_vmin g) (g_vmax g) (g_vavg g) false.
(** L112-161 on all ranks.  Only rank 0 writes; std::ofstream out(filename) empties
    the file, std::ios_base::app adds to it. *)
Definition output (n : nat) (every : Z) (c : dcall) (st : list dglob * list dline) : option (list dglob * list dline) :=
  let '(gs, file) := st in
  if negb (due every c) then Some st else
  let total := ntotal (dc_ranks c) in
  gs1 <- neighbors_stats total (combine gs (dc_ranks c)) ;;
  let gs2 := h_stats total (combine gs1 (dc_ranks c)) in
  let gs3 := v_stats n total (combine gs2 (dc_ranks c)) in
  match gs3 with
  | [] => None
  | g :: r =>
    let file1 := if g_first g then [DHeader] else file in
    Some (set_first g :: r, file1 ++ [DRow (dc_iter c) (dc_time c) g])
  end.
(** A run: the calls of the main loop (app/drivers/hydro/main_driver.cc L261,
    newtonian L280, wvt L211) of a process started with the file [file]. *)
Fixpoint outputs (n : nat) (every : Z) (cs : list dcall) (st : list dglob * list dline) : option (list dglob * list dline) :=
  match cs with [] => Some st | c :: r => st' <- output n every c st ;; outputs n every r st' end.
Definition run (n : nat) (every : Z) (size : nat) (cs : list dcall) (file : list dline) : option (list dline) :=
  st <- outputs n every cs (repeat glob0 size, file) ;; Some (snd st).
