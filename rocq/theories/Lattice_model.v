(** Model of the particle lattices, /repo/include/lattice.h.

    The generators are written over an abstract arithmetic, so that what is proved
    about counting holds for doubles as well; for distances it is instantiated with
    the reals.  Loops over doubles run with fuel, None means it did not suffice (for
    a spacing of 0 none does). *)
From Coq Require Import Reals.
From Verif Require Import Base BuildTree_model Range_model.

Record arith (F : Type) := Arith { a_add : F -> F -> F; a_sub : F -> F -> F; a_mul : F -> F -> F; a_div : F -> F -> F;
  a_lt : F -> F -> bool; a_ofz : Z -> F; a_sqrt : F -> F }.
Arguments a_add {F}. Arguments a_sub {F}. Arguments a_mul {F}. Arguments a_div {F}. Arguments a_lt {F}. Arguments a_ofz {F}. Arguments a_sqrt {F}.

(** posid and the arrays x, y, z *)
Record lst (F : Type) := Lst { l_pid : Z; l_x : Z -> F; l_y : Z -> F; l_z : Z -> F }.
Arguments Lst {F}. Arguments l_pid {F}. Arguments l_x {F}. Arguments l_y {F}. Arguments l_z {F}.

Section Lattice.
Context {F : Type} (A : arith F).
Notation "x +' y" := (a_add A x y) (at level 50, left associativity).
Notation "x -' y" := (a_sub A x y) (at level 50, left associativity).
Notation "x *' y" := (a_mul A x y) (at level 40, left associativity).
Notation "x /' y" := (a_div A x y) (at level 40, left associativity).
Notation "x <' y" := (a_lt A x y) (at level 70).
Notation "# z" := (a_ofz A z) (at level 1).
Definition a_min (a b : F) : F := if b <' a then b else a.
(** L59 *)
Definition b_tol : F := #1 /' #1000000.
(** L73-82 *)
Definition in_domain_1d (x xmin xmax : F) : bool :=
  let dx := b_tol *' (xmax -' xmin) in ((xmin -' dx) <' x) && (x <' (xmax -' dx)).
(** L84-106; points as functions of the dimension *)
Definition in_domain_2d (x y : F) (bmin bmax : nat -> F) (domain_type : Z) : bool :=
  let dx := b_tol *' (bmax 0%nat -' bmin 0%nat) in
  let xmin := bmin 0%nat -' dx in let xmax := bmax 0%nat -' dx in
  let ymin := bmin 1%nat -' dx in let ymax := bmax 1%nat -' dx in
  (xmin <' x) && (x <' xmax) && (ymin <' y) && (y <' ymax) &&
  (if (domain_type =? 1)%Z then
     let half := #1 /' #2 in
     let r := half *' a_min (xmax -' xmin) (ymax -' ymin) in
     let x0 := half *' (xmin +' xmax) in let y0 := half *' (ymin +' ymax) in
     ((x -' x0) *' (x -' x0) +' (y -' y0) *' (y -' y0)) <' (r *' r)
   else true).
(** L108-133 *)
Definition in_domain_3d (x y z : F) (bmin bmax : nat -> F) (domain_type : Z) : bool :=
  let dx := b_tol *' (bmax 0%nat -' bmin 0%nat) in
  let xmin := bmin 0%nat -' dx in let xmax := bmax 0%nat -' dx in
  let ymin := bmin 1%nat -' dx in let ymax := bmax 1%nat -' dx in
  let zmin := bmin 2%nat -' dx in let zmax := bmax 2%nat -' dx in
  (xmin <' x) && (x <' xmax) && (ymin <' y) && (y <' ymax) && (zmin <' z) && (z <' zmax) &&
  (if (domain_type =? 1)%Z then
     let half := #1 /' #2 in
     let r := half *' a_min (a_min (xmax -' xmin) (ymax -' ymin)) (zmax -' zmin) in
     let x0 := half *' (xmin +' xmax) in let y0 := half *' (ymin +' ymax) in let z0 := half *' (zmin +' zmax) in
     ((x -' x0) *' (x -' x0) +' (y -' y0) *' (y -' y0) +' (z -' z0) *' (z -' z0)) <' (r *' r)
   else true).

Definition upd_z (a : Z -> F) (i : Z) (v : F) : Z -> F := fun j => if (j =? i)%Z then v else a j.
(** if(in_domain) { if(!count_only) {x[posid] = ...;} posid++; } *)
Definition place (inside : bool) (x y z : F) (count_only : bool) (s : lst F) : option (lst F) :=
  Some (if inside then
    if count_only then Lst (l_pid s + 1) (l_x s) (l_y s) (l_z s)
    else Lst (l_pid s + 1) (upd_z (l_x s) (l_pid s) x) (upd_z (l_y s) (l_pid s) y) (upd_z (l_z s) (l_pid s) z)
  else s).
(** for(x = x0, o = o0; x < b; x += d, o = nx(o)) body *)
Fixpoint floop (fuel : nat) (x o b d : F) (nx : F -> F) (body : F -> F -> bool -> lst F -> option (lst F)) (c : bool) (s : lst F) : option (lst F) :=
  match fuel with
  | O => None
  | S k => if x <' b then s' <- body x o c s ;; floop k (x +' d) (nx o) b d nx body c s' else Some s
  end.
Definition same (o : F) : F := o.
Definition flip (o : F) : F := #1 -' o.
(** L260: zl = (zl + 1) * (zl < 3) *)
Definition next_fcc (zl : F) : F := (zl +' #1) *' (if zl <' #3 then #1 else #0).

(** generator_lattice_1d, L143-173 *)
Definition gen_1d (fuel : nat) (bmin bmax : nat -> F) (sep : F) : bool -> lst F -> option (lst F) :=
  let xmin := bmin 0%nat in let xmax := bmax 0%nat in
  floop fuel xmin #0 xmax sep same (fun x_p _ => place (in_domain_1d x_p xmin xmax) x_p #0 #0).
(** generator_lattice_2d, L175-222 *)
Definition gen_2d (fuel : nat) (lattice_type domain_type : Z) (bmin bmax : nat -> F) (sep : F) : bool -> lst F -> option (lst F) :=
  let xmin := bmin 0%nat in let xmax := bmax 0%nat in
  let ymin := bmin 1%nat in let ymax := bmax 1%nat in
  let dx := sep in let dy := sep *' a_sqrt A #3 /' #2 in
  if (lattice_type =? 0)%Z then
    floop fuel ymin #0 ymax dx same (fun y_p _ =>
      floop fuel xmin #0 xmax dx same (fun x_p _ => place (in_domain_2d x_p y_p bmin bmax domain_type) x_p y_p #0))
  else
    floop fuel ymin #0 ymax dy flip (fun y_p yo =>
      floop fuel (xmin +' yo *' dx /' #2) #0 xmax dx same (fun x_p _ => place (in_domain_2d x_p y_p bmin bmax domain_type) x_p y_p #0)).
(** generator_lattice_3d, L224-293 *)
Definition gen_3d (fuel : nat) (lattice_type domain_type : Z) (bmin bmax : nat -> F) (sep : F) : bool -> lst F -> option (lst F) :=
  let xmin := bmin 0%nat in let xmax := bmax 0%nat in
  let ymin := bmin 1%nat in let ymax := bmax 1%nat in
  let zmin := bmin 2%nat in let zmax := bmax 2%nat in
  let dx := sep in let dy := sep *' a_sqrt A #3 /' #2 in let dz := sep *' a_sqrt A (#2 /' #3) in
  if (lattice_type =? 0)%Z then
    floop fuel zmin #0 zmax dx same (fun z_p _ => floop fuel ymin #0 ymax dx same (fun y_p _ =>
      floop fuel xmin #0 xmax dx same (fun x_p _ => place (in_domain_3d x_p y_p z_p bmin bmax domain_type) x_p y_p z_p)))
  else if (lattice_type =? 1)%Z then
    floop fuel zmin #0 zmax dz flip (fun z_p zo => floop fuel (ymin -' zo *' dy /' #3) #0 ymax dy flip (fun y_p yo =>
      floop fuel (xmin +' (yo -' zo) *' dx /' #2) #0 xmax dx same (fun x_p _ => place (in_domain_3d x_p y_p z_p bmin bmax domain_type) x_p y_p z_p)))
  else if (lattice_type =? 2)%Z then
    floop fuel zmin #0 zmax dz next_fcc (fun z_p zl => floop fuel (ymin -' zl *' dy /' #3) #0 ymax dy flip (fun y_p yo =>
      floop fuel (xmin +' (yo -' zl) *' dx /' #2) #0 xmax dx same (fun x_p _ => place (in_domain_3d x_p y_p z_p bmin bmax domain_type) x_p y_p z_p)))
  else fun _ s => Some s.

(** The icosahedral generator, L330-592: the points of shell [nn] in order -- twelve
    vertices, or the centre for shell 0 (L416-442), nn - 1 points on each of the
    thirty edges (L447-487), the interior of each of the twenty faces (L492-554).
    [pos] stands for the positions computed there. *)
Inductive ico_index := Centre | Vertex (i : nat) | EdgePt (i k : nat) | FacePt (i m n : nat).
Definition ico_shell (nn : nat) : list ico_index :=
  (if (0 <? nn)%nat then map Vertex (seq 0 12) else [Centre]) ++
  flat_map (fun i => map (EdgePt i) (seq 0 (nn - 1))) (seq 0 30) ++
  flat_map (fun i => flat_map (fun m => map (FacePt i m) (seq 1 (nn - 1 - m))) (seq 1 (nn - 1))) (seq 0 20).
Fixpoint place_all (pos : nat -> ico_index -> F * F * F) (bmin bmax : nat -> F) (domain_type : Z) (nn : nat) (l : list ico_index) (c : bool) (s : lst F) : option (lst F) :=
  match l with
  | [] => Some s
  | i :: r => let '(x, y, z) := pos nn i in
      s' <- place (match i with Centre => true | _ => in_domain_3d x y z bmin bmax domain_type end) x y z c s ;;
      place_all pos bmin bmax domain_type nn r c s'
  end.
Fixpoint gen_ico (pos : nat -> ico_index -> F * F * F) (bmin bmax : nat -> F) (domain_type : Z) (nns : list nat) (c : bool) (s : lst F) : option (lst F) :=
  match nns with [] => Some s | nn :: r => s' <- place_all pos bmin bmax domain_type nn (ico_shell nn) c s ;; gen_ico pos bmin bmax domain_type r c s' end.

(** generator_random_lattice, L603-662: for each of [npart] particles draws until one is
    accepted (L640-641); [draw] stands for the random engine -- seeded by the clock, so
    it differs from call to call -- with the acceptance test *)
Fixpoint rejection (fuel : nat) (draw : nat -> bool * F * F * F) (t : nat) (c : bool) (s : lst F) : option (nat * lst F) :=
  match fuel with
  | O => None
  | S k => let '(ok, x, y, z) := draw t in
      if ok then s' <- place true x y z c s ;; Some (S t, s') else rejection k draw (S t) c s
  end.
Fixpoint gen_random (fuel npart : nat) (draw : nat -> bool * F * F * F) (t : nat) (c : bool) (s : lst F) : option (lst F) :=
  match npart with
  | O => Some s
  | S n => match rejection fuel draw t c s with None => None | Some (t', s') => gen_random fuel n draw t' c s' end
  end.
End Lattice.

(** L300-306 and L312-318, with the int arithmetic of the products; None: overflow *)
Definition i32 (z : Z) : option Z := if ((-2147483648 <=? z) && (z <=? 2147483647))%Z then Some z else None.
Definition npart_shell (k : Z) : option Z :=
  if (0 <? k)%Z then
    a <- i32 (30 * (k - 1)) ;; b <- i32 (12 + a) ;; c <- i32 (10 * (k - 1)) ;; d <- i32 (c * (k - 2)) ;; i32 (b + d)
  else Some 1%Z.
Definition npart_sphere (k : Z) : option Z :=
  if (0 <? k)%Z then
    a <- i32 (3 * k) ;; b <- i32 (5 * k) ;; c <- i32 (a * (b - 1)) ;; d <- i32 (1 + c) ;;
    e <- i32 (10 * k) ;; f <- i32 (e * (k - 1)) ;; g <- i32 (f * (k - 2)) ;; i32 (d + g / 3)
  else Some 1%Z.
(** L372-380: the edges and faces, vertices numbered from 1 *)
Definition ico_edg : list (nat * nat) :=
  [(1, 2); (1, 3); (1, 4); (1, 5); (1, 6); (2, 3); (3, 4); (4, 5); (5, 6); (6, 2); (2, 7); (7, 3); (3, 8); (8, 4); (4, 9);
   (9, 5); (5, 10); (10, 6); (6, 11); (11, 2); (7, 8); (8, 9); (9, 10); (10, 11); (11, 7); (7, 12); (8, 12); (9, 12); (10, 12); (11, 12)]%nat.
Definition ico_fac : list (nat * nat * nat) :=
  [(1, 2, 3); (1, 3, 4); (1, 4, 5); (1, 5, 6); (1, 6, 2); (7, 2, 3); (8, 3, 4); (9, 4, 5); (10, 5, 6); (11, 6, 2);
   (3, 7, 8); (4, 8, 9); (5, 9, 10); (6, 10, 11); (2, 11, 7); (12, 7, 8); (12, 8, 9); (12, 9, 10); (12, 10, 11); (12, 11, 7)]%nat.
(** The arithmetic of the reals *)
Definition RA : arith R := Arith R Rplus Rminus Rmult Rdiv Rlt_b IZR sqrt.
(** L361-365 and L396-415: the twelve vertices of the shell of radius rk *)
Definition ico_sinb : R := (sqrt (4 * (sin (PI / 5)) ^ 2 - 1) / (2 * (sin (PI / 5)) ^ 2))%R.
Definition ico_cosb : R := sqrt (1 - ico_sinb ^ 2)%R.
Definition ico_vtx (rk : R) (i : nat) : R * R * R :=
  (if (i =? 0)%nat then (0, 0, rk)
   else if (i =? 11)%nat then (0, 0, - rk)
   else if (i <? 6)%nat then let a := 2 * INR (i - 1) * (PI / 5) in (rk * ico_sinb * cos a, rk * ico_sinb * sin a, rk * ico_cosb)
   else let a := (2 * INR (i - 6) + 1) * (PI / 5) in (rk * ico_sinb * cos a, rk * ico_sinb * sin a, - rk * ico_cosb))%R.
