(** Tensors: storage index, named access and in-place arithmetic.
    Source: include/tensor.h.

    Indices are natural numbers: the integer type of the subscripts is taken
    not to overflow (the products are bounded by 24 times the size of an
    object held in memory). *)
From Verif Require Import Base.

(** [symmetry_type], tensor.h L36. *)
Inductive symmetry := generic | symmetric.

(** [symindx2], tensor.h L890-893. *)
Definition symindx2 (i j : nat) : nat :=
  if j <? i then i * (i + 1) / 2 + j else j * (j + 1) / 2 + i.

(** [symindx3], tensor.h L895-902. *)
Definition symindx3 (i j k : nat) : nat :=
  if (j <=? i) && (k <=? i) then i * (i + 1) * (i + 2) / 6 + symindx2 j k
  else if (i <=? j) && (k <=? j) then j * (j + 1) * (j + 2) / 6 + symindx2 i k
  else k * (k + 1) * (k + 2) / 6 + symindx2 i j.

(** [symindx4], tensor.h L904-915. *)
Definition symindx4 (i j k l : nat) : nat :=
  if (j <=? i) && (k <=? i) && (l <=? i) then
    i * (i + 1) * (i + 2) * (i + 3) / 24 + symindx3 j k l
  else if (i <=? j) && (k <=? j) && (l <=? j) then
    j * (j + 1) * (j + 2) * (j + 3) / 24 + symindx3 i k l
  else if (i <=? k) && (j <=? k) && (l <=? k) then
    k * (k + 1) * (k + 2) * (k + 3) / 24 + symindx3 i j l
  else
    l * (l + 1) * (l + 2) * (l + 3) / 24 + symindx3 i j k.

(** [pascal_number], tensor.h L422-425 (empty list of dimensions) and
    L866-869; the argument is the rank, the number of dimensions left. *)
Fixpoint pascal_number (rank i : nat) : nat :=
  match rank with
  | O => 1
  | S r => i * pascal_number r (i + 1) / rank
  end.

(** [size], tensor.h L414-416 and L486-492.  A generic tensor multiplies its
    dimensions, a symmetric one uses the Pascal number of the first one. *)
Fixpoint gsize (ds : list nat) : nat :=
  match ds with [] => 1 | d :: ds' => d * gsize ds' end.

Definition size (st : symmetry) (ds : list nat) : nat :=
  match st with
  | generic => gsize ds
  | symmetric => match ds with [] => 1 | d :: _ => pascal_number (length ds) d end
  end.

(** [multiindex], tensor.h L419-421 and L872-888.  The generic case recurses
    over the dimensions; the symmetric case exists for ranks 2, 3 and 4
    only ([None] is a call that does not compile). *)
Fixpoint gindex (ds is : list nat) : option nat :=
  match ds, is with
  | [], [] => Some 0
  | d :: ds', i :: is' =>
      match gindex ds' is' with Some r => Some (d * r + i) | None => None end
  | _, _ => None
  end.

Definition multiindex (st : symmetry) (ds is : list nat) : option nat :=
  match st with
  | generic => gindex ds is
  | symmetric =>
      match length ds, is with
      | 2, [i; j] => Some (symindx2 i j)
      | 3, [i; j; k] => Some (symindx3 i j k)
      | 4, [i; j; k; l] => Some (symindx4 i j k l)
      | _, _ => None
      end
  end.

(** The enumerations [rank2_index], [rank3_index] and [rank4_index] of
    tensor.h L42-384: the name of a component, read as a list of axes
    (x = 0, y = 1, z = 2, t = 3), has the number with these base-4 digits.
    (xx = 0 … tt = 15, xxx = 0 … ttt = 63, xxxx = 0 … tttt = 255.) *)
Definition enum_value (axes : list nat) : nat :=
  fold_left (fun v a => 4 * v + a) axes 0.

(** Table of tensor.h L529-529: rank 2, generic, dimension 2. *)
Definition remap_g2_2 : list Z :=
  [0; 2; (-1); (-1); 1; 3]%Z.

(** Table of tensor.h L535-535: rank 2, generic, dimension 3. *)
Definition remap_g2_3 : list Z :=
  [0; 3; 6; (-1); 1; 4; 7; (-1); 2; 5; 8]%Z.

(** Table of tensor.h L541-542: rank 2, generic, dimension 4. *)
Definition remap_g2_4 : list Z :=
  [0; 4; 8; 12; 1; 5; 9; 13; 2; 6; 10; 14; 3; 7; 11; 15]%Z.

(** Table of tensor.h L554-554: rank 2, symmetric, dimension 2. *)
Definition remap_s2_2 : list Z :=
  [0; 1; (-1); (-1); 1; 2]%Z.

(** Table of tensor.h L560-560: rank 2, symmetric, dimension 3. *)
Definition remap_s2_3 : list Z :=
  [0; 1; 3; (-1); 1; 2; 4; (-1); 3; 4; 5]%Z.

(** Table of tensor.h L566-567: rank 2, symmetric, dimension 4. *)
Definition remap_s2_4 : list Z :=
  [0; 1; 3; 6; 1; 2; 4; 7; 3; 4; 5; 8; 6; 7; 8; 9]%Z.

(** Table of tensor.h L588-591: rank 3, generic, dimension 2. *)
Definition remap_g3_2 : list Z :=
  [0; 4; (-1); (-1); 2; 6; (-1); (-1); (-1); (-1); (-1); (-1); (-1); (-1);
   (-1); (-1); 1; 5; (-1); (-1); 3; 7]%Z.

(** Table of tensor.h L597-602: rank 3, generic, dimension 3. *)
Definition remap_g3_3 : list Z :=
  [0; 9; 18; (-1); 3; 12; 21; (-1); 6; 15; 24; (-1); (-1); (-1); (-1); (-1);
   1; 10; 19; (-1); 4; 13; 22; (-1); 7; 16; 25; (-1); (-1); (-1); (-1); (-1);
   2; 11; 20; (-1); 5; 14; 23; (-1); 8; 17; 26]%Z.

(** Table of tensor.h L608-615: rank 3, generic, dimension 4. *)
Definition remap_g3_4 : list Z :=
  [0; 16; 32; 48; 4; 20; 36; 52; 8; 24; 40; 56; 12; 28; 44; 60; 1; 17; 33;
   49; 5; 21; 37; 53; 9; 25; 41; 57; 13; 29; 45; 61; 2; 18; 34; 50; 6; 22;
   38; 54; 10; 26; 42; 58; 14; 30; 46; 62; 3; 19; 35; 51; 7; 23; 39; 55; 11;
   27; 43; 59; 15; 31; 47; 63]%Z.

(** Table of tensor.h L628-631: rank 3, symmetric, dimension 2. *)
Definition remap_s3_2 : list Z :=
  [0; 1; (-1); (-1); 1; 2; (-1); (-1); (-1); (-1); (-1); (-1); (-1); (-1);
   (-1); (-1); 1; 2; (-1); (-1); 2; 3]%Z.

(** Table of tensor.h L637-642: rank 3, symmetric, dimension 3. *)
Definition remap_s3_3 : list Z :=
  [0; 1; 4; (-1); 1; 2; 5; (-1); 4; 5; 7; (-1); (-1); (-1); (-1); (-1); 1; 2;
   5; (-1); 2; 3; 6; (-1); 5; 6; 8; (-1); (-1); (-1); (-1); (-1); 4; 5; 7;
   (-1); 5; 6; 8; (-1); 7; 8; 9]%Z.

(** Table of tensor.h L648-655: rank 3, symmetric, dimension 4. *)
Definition remap_s3_4 : list Z :=
  [0; 1; 4; 10; 1; 2; 5; 11; 4; 5; 7; 13; 10; 11; 13; 16; 1; 2; 5; 11; 2; 3;
   6; 12; 5; 6; 8; 14; 11; 12; 14; 17; 4; 5; 7; 13; 5; 6; 8; 14; 7; 8; 9; 15;
   13; 14; 15; 18; 10; 11; 13; 16; 11; 12; 14; 17; 13; 14; 15; 18; 16; 17;
   18; 19]%Z.

(** Table of tensor.h L677-688: rank 4, generic, dimension 2. *)
Definition remap_g4_2 : list Z :=
  [0; 8; (-1); (-1); 4; 12; (-1); (-1); (-1); (-1); (-1); (-1); (-1); (-1);
   (-1); (-1); 2; 10; (-1); (-1); 6; 14; (-1); (-1); (-1); (-1); (-1); (-1);
   (-1); (-1); (-1); (-1); (-1); (-1); (-1); (-1); (-1); (-1); (-1); (-1);
   (-1); (-1); (-1); (-1); (-1); (-1); (-1); (-1); (-1); (-1); (-1); (-1);
   (-1); (-1); (-1); (-1); (-1); (-1); (-1); (-1); (-1); (-1); (-1); (-1); 1;
   9; (-1); (-1); 5; 13; (-1); (-1); (-1); (-1); (-1); (-1); (-1); (-1);
   (-1); (-1); 3; 11; (-1); (-1); 7; 15]%Z.

(** Table of tensor.h L694-715: rank 4, generic, dimension 3. *)
Definition remap_g4_3 : list Z :=
  [0; 27; 54; (-1); 9; 36; 63; (-1); 18; 45; 72; (-1); (-1); (-1); (-1);
   (-1); 3; 30; 57; (-1); 12; 39; 66; (-1); 21; 48; 75; (-1); (-1); (-1);
   (-1); (-1); 6; 33; 60; (-1); 15; 42; 69; (-1); 24; 51; 78; (-1); (-1);
   (-1); (-1); (-1); (-1); (-1); (-1); (-1); (-1); (-1); (-1); (-1); (-1);
   (-1); (-1); (-1); (-1); (-1); (-1); (-1); 1; 28; 55; (-1); 10; 37; 64;
   (-1); 19; 46; 73; (-1); (-1); (-1); (-1); (-1); 4; 31; 58; (-1); 13; 40;
   67; (-1); 22; 49; 76; (-1); (-1); (-1); (-1); (-1); 7; 34; 61; (-1); 16;
   43; 70; (-1); 25; 52; 79; (-1); (-1); (-1); (-1); (-1); (-1); (-1); (-1);
   (-1); (-1); (-1); (-1); (-1); (-1); (-1); (-1); (-1); (-1); (-1); (-1);
   (-1); 2; 29; 56; (-1); 11; 38; 65; (-1); 20; 47; 74; (-1); (-1); (-1);
   (-1); (-1); 5; 32; 59; (-1); 14; 41; 68; (-1); 23; 50; 77; (-1); (-1);
   (-1); (-1); (-1); 8; 35; 62; (-1); 17; 44; 71; (-1); 26; 53; 80]%Z.

(** Table of tensor.h L721-767: rank 4, generic, dimension 4. *)
Definition remap_g4_4 : list Z :=
  [0; 64; 128; 192; 16; 80; 144; 208; 32; 96; 160; 224; 48; 112; 176; 240; 4;
   68; 132; 196; 20; 84; 148; 212; 36; 100; 164; 228; 52; 116; 180; 244; 8;
   72; 136; 200; 24; 88; 152; 216; 40; 104; 168; 232; 56; 120; 184; 248; 12;
   76; 140; 204; 28; 92; 156; 220; 44; 108; 172; 236; 60; 124; 188; 252; 1;
   65; 129; 193; 17; 81; 145; 209; 33; 97; 161; 225; 49; 113; 177; 241; 5;
   69; 133; 197; 21; 85; 149; 213; 37; 101; 165; 229; 53; 117; 181; 245; 9;
   73; 137; 201; 25; 89; 153; 217; 41; 105; 169; 233; 57; 121; 185; 249; 13;
   77; 141; 205; 29; 93; 157; 221; 45; 109; 173; 237; 61; 125; 189; 253; 2;
   66; 130; 194; 18; 82; 146; 210; 34; 98; 162; 226; 50; 114; 178; 242; 6;
   70; 134; 198; 22; 86; 150; 214; 38; 102; 166; 230; 54; 118; 182; 246; 10;
   74; 138; 202; 26; 90; 154; 218; 42; 106; 170; 234; 58; 122; 186; 250; 14;
   78; 142; 206; 30; 94; 158; 222; 46; 110; 174; 238; 62; 126; 190; 254; 3;
   67; 131; 195; 19; 83; 147; 211; 35; 99; 163; 227; 51; 115; 179; 243; 7;
   71; 135; 199; 23; 87; 151; 215; 39; 103; 167; 231; 55; 119; 183; 247; 11;
   75; 139; 203; 27; 91; 155; 219; 43; 107; 171; 235; 59; 123; 187; 251; 15;
   79; 143; 207; 31; 95; 159; 223; 47; 111; 175; 239; 63; 127; 191; 255]%Z.

(** Table of tensor.h L780-791: rank 4, symmetric, dimension 2. *)
Definition remap_s4_2 : list Z :=
  [0; 1; (-1); (-1); 1; 2; (-1); (-1); (-1); (-1); (-1); (-1); (-1); (-1);
   (-1); (-1); 1; 2; (-1); (-1); 2; 3; (-1); (-1); (-1); (-1); (-1); (-1);
   (-1); (-1); (-1); (-1); (-1); (-1); (-1); (-1); (-1); (-1); (-1); (-1);
   (-1); (-1); (-1); (-1); (-1); (-1); (-1); (-1); (-1); (-1); (-1); (-1);
   (-1); (-1); (-1); (-1); (-1); (-1); (-1); (-1); (-1); (-1); (-1); (-1); 1;
   2; (-1); (-1); 2; 3; (-1); (-1); (-1); (-1); (-1); (-1); (-1); (-1); (-1);
   (-1); 2; 3; (-1); (-1); 3; 4]%Z.

(** Table of tensor.h L797-818: rank 4, symmetric, dimension 3. *)
Definition remap_s4_3 : list Z :=
  [0; 1; 5; (-1); 1; 2; 6; (-1); 5; 6; 9; (-1); (-1); (-1); (-1); (-1); 1; 2;
   6; (-1); 2; 3; 7; (-1); 6; 7; 10; (-1); (-1); (-1); (-1); (-1); 5; 6; 9;
   (-1); 6; 7; 10; (-1); 9; 10; 12; (-1); (-1); (-1); (-1); (-1); (-1); (-1);
   (-1); (-1); (-1); (-1); (-1); (-1); (-1); (-1); (-1); (-1); (-1); (-1);
   (-1); (-1); 1; 2; 6; (-1); 2; 3; 7; (-1); 6; 7; 10; (-1); (-1); (-1);
   (-1); (-1); 2; 3; 7; (-1); 3; 4; 8; (-1); 7; 8; 11; (-1); (-1); (-1);
   (-1); (-1); 6; 7; 10; (-1); 7; 8; 11; (-1); 10; 11; 13; (-1); (-1); (-1);
   (-1); (-1); (-1); (-1); (-1); (-1); (-1); (-1); (-1); (-1); (-1); (-1);
   (-1); (-1); (-1); (-1); (-1); (-1); 5; 6; 9; (-1); 6; 7; 10; (-1); 9; 10;
   12; (-1); (-1); (-1); (-1); (-1); 6; 7; 10; (-1); 7; 8; 11; (-1); 10; 11;
   13; (-1); (-1); (-1); (-1); (-1); 9; 10; 12; (-1); 10; 11; 13; (-1); 12;
   13; 14]%Z.

(** Table of tensor.h L824-855: rank 4, symmetric, dimension 4. *)
Definition remap_s4_4 : list Z :=
  [0; 1; 5; 15; 1; 2; 6; 16; 5; 6; 9; 19; 15; 16; 19; 25; 1; 2; 6; 16; 2; 3;
   7; 17; 6; 7; 10; 20; 16; 17; 20; 26; 5; 6; 9; 19; 6; 7; 10; 20; 9; 10; 12;
   22; 19; 20; 22; 28; 15; 16; 19; 25; 16; 17; 20; 26; 19; 20; 22; 28; 25;
   26; 28; 31; 1; 2; 6; 16; 2; 3; 7; 17; 6; 7; 10; 20; 16; 17; 20; 26; 2; 3;
   7; 17; 3; 4; 8; 18; 7; 8; 11; 21; 17; 18; 21; 27; 6; 7; 10; 20; 7; 8; 11;
   21; 10; 11; 13; 23; 20; 21; 23; 29; 16; 17; 20; 26; 17; 18; 21; 27; 20;
   21; 23; 29; 26; 27; 29; 32; 5; 6; 9; 19; 6; 7; 10; 20; 9; 10; 12; 22; 19;
   20; 22; 28; 6; 7; 10; 20; 7; 8; 11; 21; 10; 11; 13; 23; 20; 21; 23; 29; 9;
   10; 12; 22; 10; 11; 13; 23; 12; 13; 14; 24; 22; 23; 24; 30; 19; 20; 22;
   28; 20; 21; 23; 29; 22; 23; 24; 30; 28; 29; 30; 33; 15; 16; 19; 25; 16;
   17; 20; 26; 19; 20; 22; 28; 25; 26; 28; 31; 16; 17; 20; 26; 17; 18; 21;
   27; 20; 21; 23; 29; 26; 27; 29; 32; 19; 20; 22; 28; 20; 21; 23; 29; 22;
   23; 24; 30; 28; 29; 30; 33; 25; 26; 28; 31; 26; 27; 29; 32; 28; 29; 30;
   33; 31; 32; 33; 34]%Z.

(** The table used by the named access of a tensor of the given rank and
    leading dimension, tensor.h L517-862.  Dimension one has no table; its
    only component is number 0. *)
Definition remap (st : symmetry) (rank d : nat) : option (list Z) :=
  match st, rank, d with
  | _, 2, 1 | _, 3, 1 | _, 4, 1 => Some [0%Z]
  | generic, 2, 2 => Some remap_g2_2
  | generic, 2, 3 => Some remap_g2_3
  | generic, 2, 4 => Some remap_g2_4
  | symmetric, 2, 2 => Some remap_s2_2
  | symmetric, 2, 3 => Some remap_s2_3
  | symmetric, 2, 4 => Some remap_s2_4
  | generic, 3, 2 => Some remap_g3_2
  | generic, 3, 3 => Some remap_g3_3
  | generic, 3, 4 => Some remap_g3_4
  | symmetric, 3, 2 => Some remap_s3_2
  | symmetric, 3, 3 => Some remap_s3_3
  | symmetric, 3, 4 => Some remap_s3_4
  | generic, 4, 2 => Some remap_g4_2
  | generic, 4, 3 => Some remap_g4_3
  | generic, 4, 4 => Some remap_g4_4
  | symmetric, 4, 2 => Some remap_s4_2
  | symmetric, 4, 3 => Some remap_s4_3
  | symmetric, 4, 4 => Some remap_s4_4
  | _, _, _ => None
  end.

(** [operator\[\]] with an enumeration value, tensor.h L517-862: storage
    cell addressed; [None] is a failed assertion (index past the table or a
    negative entry). *)
Definition named (st : symmetry) (rank d : nat) (ind : nat) : option nat :=
  match remap st rank d with
  | None => None
  | Some t =>
      match nth_error t ind with
      | Some z => if (z <? 0)%Z then None else Some (Z.to_nat z)
      | None => None
      end
  end.

(** Tensor objects in memory: the data of the object at each address. *)
Definition memory (T : Type) := nat -> list T.

Definition store {T} (m : memory T) (p : nat) (v : list T) : memory T :=
  fun q => if Nat.eqb q p then v else m q.

(** The element loop of [def_operator], tensor.h L941-943, run over the
    whole data; both objects have the same type, hence the same size. *)
Fixpoint elementwise {T} (op : T -> T -> T) (a b : list T) : list T :=
  match a, b with
  | x :: a', y :: b' => op x y :: elementwise op a' b'
  | _, _ => []
  end.

(** [def_operator(op)], tensor.h L938-948, used for [+=] (L967) and [-=]
    (L979): [this] is the object at [p], [rhs] the object at [q]. *)
Definition op_assign {T} (op : T -> T -> T) (m : memory T) (p q : nat) : memory T :=
  if Nat.eqb p q then m else store m p (elementwise op (m p) (m q)).

(** [def_operator_type(op)], tensor.h L954-961, used for [+=], [-=], [*=]
    and [/=] with a scalar. *)
Definition op_assign_scalar {T} (op : T -> T -> T) (m : memory T) (p : nat) (x : T)
  : memory T := store m p (map (fun a => op a x) (m p)).

(** Copy assignment, tensor.h L469-476. *)
Definition assign {T} (m : memory T) (p q : nat) : memory T :=
  if Nat.eqb p q then m else store m p (m q).

(** [operator+] and [operator-], tensor.h L1025-1051: a fresh object [tmp] is
    copied from [a], then updated in place with [b]. *)
Definition binary {T} (op : T -> T -> T) (m : memory T) (tmp a b : nat) : list T :=
  op_assign op (store m tmp (m a)) tmp b tmp.

(** [operator==] and [operator!=], tensor.h L1137-1164. *)
Fixpoint eq_loop {T} (eqb : T -> T -> bool) (a b : list T) : bool :=
  match a, b with
  | x :: a', y :: b' => if negb (eqb x y) then false else eq_loop eqb a' b'
  | _, _ => true
  end.

Fixpoint ne_loop {T} (eqb : T -> T -> bool) (a b : list T) : bool :=
  match a, b with
  | x :: a', y :: b' => if negb (eqb x y) then true else ne_loop eqb a' b'
  | _, _ => false
  end.
