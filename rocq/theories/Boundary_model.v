(** Model of the periodic boundaries, /repo/include/physics/boundary.h.

    Coordinates are reals, a point is its function of the dimension; abs is the
    absolute value of a real (the source calls the unqualified abs).  Of a
    particle the position, the type, the id and the rest are modelled. *)
From Coq Require Import Reals.
From Verif Require Import Base BuildTree_model Range_model.
Local Open Scope R_scope.

Record pbody := PBody { pb_x : nat -> R; pb_wall : bool; pb_id : Z; pb_rest : N }.
Definition Rle_b (a b : R) : bool := if Rle_dec a b then true else false.
Definition upd (x : nat -> R) (d : nat) (v : R) : nat -> R := fun k => if Nat.eqb k d then v else x k.
Definition set_x (b : pbody) (x : nat -> R) : pbody := PBody x (pb_wall b) (pb_id b) (pb_rest b).
Definition set_wall (b : pbody) : pbody := PBody (pb_x b) true (pb_id b) (pb_rest b).
Definition set_id (b : pbody) (i : Z) : pbody := PBody (pb_x b) (pb_wall b) i (pb_rest b).

Section Boundary.
(** box_length, box_width, box_height; the three periodic flags; halo_size *)
Context (dim : nat) (len : nat -> R) (periodic : nat -> bool) (halo : R).
(** L134-146 *)
Definition blo (d : nat) : R := - (1/2) * len d.
Definition bhi (d : nat) : R := (1/2) * len d.
(** L135-145: the components of min and max that are written in dimension dim *)
Definition box_writes : list nat := [0]%nat ++ (if (1 <=? dim)%nat then [1]%nat else []) ++ (if (2 <=? dim)%nat then [2]%nat else []).

(** L150-165: one axis of one particle *)
Definition teleport1 (b : pbody) (d : nat) : pbody :=
  if periodic d then
    if Rlt_b (bhi d) (pb_x b d) then set_x b (upd (pb_x b) d (pb_x b d - (bhi d - blo d)))
    else if Rle_b (pb_x b d) (blo d) then set_x b (upd (pb_x b) d (pb_x b d + (bhi d - blo d)))
    else set_x b (pb_x b)
  else b.
Definition teleport (b : pbody) : pbody := fold_left teleport1 (seq 0 dim) b.

(** L177-178 *)
Definition on_edge (b : pbody) (d : nat) : bool :=
  periodic d && (Rlt_b (bhi d) (pb_x b d + halo) || Rle_b (pb_x b d - halo) (blo d)).
(** L182-195 *)
Definition axis_image (b : pbody) (d : nat) : pbody :=
  set_x (set_wall b) (upd (pb_x b) d
    (if Rlt_b (bhi d) (pb_x b d + halo) then pb_x b d - (bhi d - blo d) else pb_x b d + (bhi d - blo d))).
(** L79-94 and L103-118: add_corner_XX and add_corner_XXX for the axes [ds] *)
Definition corner_x (b : pbody) (ds : list nat) : nat -> R :=
  fold_left (fun coord d => upd coord d
    (if Rlt_b (bhi d) (pb_x b d + halo) then blo d - Rabs (pb_x b d + blo d) else bhi d + Rabs (pb_x b d + bhi d))) ds (pb_x b).
Definition add_corner (b : pbody) (ds : list nat) : list pbody :=
  if forallb (on_edge b) ds then [set_x (set_wall b) (corner_x b ds)] else [].
(** L168-213: the images of one particle *)
Definition images (b : pbody) : list pbody :=
  flat_map (fun d => if on_edge b d then [axis_image b d] else []) (seq 0 dim) ++
  (if (dim =? 2)%nat then add_corner b [0; 1]%nat else []) ++
  (if (dim =? 3)%nat then add_corner b [0; 1]%nat ++ add_corner b [0; 2]%nat ++ add_corner b [2; 1]%nat ++ add_corner b [0; 1; 2]%nat else []).

(** L238-243: new ids for the walls *)
Fixpoint reindex (l : list pbody) (i : Z) : list pbody :=
  match l with
  | [] => []
  | b :: r => if pb_wall b then set_id b i :: reindex r (i + 1) else b :: reindex r i
  end.
(** L121-221 on one rank, before the new ids *)
Definition with_images (l : list pbody) : list pbody := let t := map teleport l in t ++ flat_map images t.
Fixpoint idsum (l : list pbody) : Z := match l with [] => 0%Z | b :: r => (pb_id b + idsum r)%Z end.
(** L225-243: rank by rank, [i] is original_nparticles + nparticles_wall[rank] *)
Fixpoint reindex_all (ranks : list (list pbody)) (i : Z) : list (list pbody) :=
  match ranks with
  | [] => []
  | l :: r => reindex (with_images l) i :: reindex_all r (i + Z.of_nat (length (flat_map images (map teleport l))))
  end.
Definition n_images (ranks : list (list pbody)) : Z :=
  fold_right (fun l s => (Z.of_nat (length (flat_map images (map teleport l))) + s)%Z) 0%Z ranks.
Definition n_original (ranks : list (list pbody)) : Z := fold_right (fun l s => (Z.of_nat (length l) + s)%Z) 0%Z ranks.
(** L121-249 on all ranks; None: the assertion of L248 *)
Definition generate (ranks : list (list pbody)) : option (list (list pbody)) :=
  let out := reindex_all ranks (n_original ranks) in
  let total := (n_original ranks + n_images ranks)%Z in
  if (fold_right (fun l s => (idsum l + s)%Z) 0%Z out =? (total - 1) * total / 2)%Z then Some out else None.
End Boundary.

(** L46-70, pboundary_clean: stable_partition and erase; None: the assertion of
    L52 (nothing but walls) *)
Definition clean (l : list pbody) : option (list pbody) :=
  match filter (fun b => negb (pb_wall b)) l with [] => None | k => Some k end.
