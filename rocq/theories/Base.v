(** Common imports and small arithmetic tactics used by all files. *)
From Coq Require Export NArith ZArith List Bool Lia Arith.
From Coq Require Export ZifyBool ZifyNat ZifyN.
Export ListNotations.

Global Arguments N.add : simpl never.
Global Arguments N.sub : simpl never.
Global Arguments N.mul : simpl never.
Global Arguments N.div : simpl never.
Global Arguments N.modulo : simpl never.
Global Arguments N.pow : simpl never.
Global Arguments N.shiftl : simpl never.
Global Arguments N.shiftr : simpl never.
Global Arguments N.land : simpl never.
Global Arguments N.lor : simpl never.
Global Arguments Z.add : simpl never.
Global Arguments Z.sub : simpl never.
Global Arguments Z.mul : simpl never.
Global Arguments Z.div : simpl never.
Global Arguments Z.modulo : simpl never.
Global Arguments Z.pow : simpl never.

(** [N] versions of the machine word: 64-bit unsigned arithmetic. *)
Definition w64 : N := (2 ^ 64)%N.
Definition wrap64 (x : N) : N := (x mod w64)%N.

(** [dim_ok dim]: the dimensions the code is instantiated with. *)
Definition dim_ok (dim : N) : Prop := dim = 1%N \/ dim = 2%N \/ dim = 3%N.
