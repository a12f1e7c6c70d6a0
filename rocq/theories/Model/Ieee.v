(** The representation of floating point numbers. *)
From Coq Require Import List Arith ZArith Bool.
From Verif Require Import Lang.Mem Model.Comparators Model.Counting Model.Ska.
Import ListNotations.
Local Open Scope Z_scope.

(** The IEC 60559 binary interchange formats (std::numeric_limits<T>::is_iec559): the sign is the highest bit, then come the biased exponent and the fraction. *)
Record format := { exponent_bits : Z; fraction_bits : Z }.
Definition binary32 : format := {| exponent_bits := 8; fraction_bits := 23 |}.
Definition binary64 : format := {| exponent_bits := 11; fraction_bits := 52 |}.
Definition magnitude_bits (f : format) : Z := exponent_bits f + fraction_bits f.
Definition width (f : format) : Z := 1 + magnitude_bits f.
Definition bias (f : format) : Z := 2 ^ (exponent_bits f - 1) - 1.

(** A non-zero finite number from its significand. *)
Definition finite (neg : bool) (m e : Z) : fp := match m with Zpos p => Finite neg p e | _ => Zero neg end.

(** The datum represented by the bits [u], read as an unsigned integer. *)
Definition decode (f : format) (u : Z) : fp :=
  let neg := 2 ^ magnitude_bits f <=? u in
  let exponent := (u / 2 ^ fraction_bits f) mod 2 ^ exponent_bits f in
  let fraction := u mod 2 ^ fraction_bits f in
  if exponent =? 2 ^ exponent_bits f - 1 then
    if fraction =? 0 then Infinite neg else Nan neg (Z.to_N fraction)
  else if exponent =? 0 then finite neg fraction (1 - bias f - fraction_bits f)
  else finite neg (2 ^ fraction_bits f + fraction) (exponent - bias f - fraction_bits f).

(** The values of the type other than the NaNs, as their bits.  (The sorters of floating point numbers use the built-in operator<, which is
    no strict weak order on the NaNs.) *)
Definition number (f : format) : Type := { u : Z | ((0 <=? u) && (u <? 2 ^ width f)) && negb (isnan (decode f u)) = true }.
(** The bits of a number: memcpy_cast (detail/memcpy_cast.h:19-32) to the unsigned integer type of the same size. *)
Definition pattern {f} (x : number f) : Z := proj1_sig x.
(** The built-in operator<. *)
Definition less {f} (x y : number f) : bool := fp_lt (decode f (pattern x)) (decode f (pattern y)).

(** detail/ska_sort.h:117-131, [w] being 32 or 64: all the bits are flipped if the sign bit is set, else the sign bit only. *)
Definition float_to_unsigned {f} (x : number f) : N :=
  let u := Z.to_N (pattern x) in
  let w := Z.to_N (width f) in
  let sign_bit := if N.testbit u (w - 1) then N.ones w else 0%N in
  N.lxor u (N.lor sign_bit (2 ^ (w - 1))).

(** sorters/ska_sorter.h:29-60 on floating point keys. *)
Definition float_ska_sorter {A} {f} (proj : A -> number f) (branchless : bool) : range_prog A :=
  inplace_radix_sort less proj float_to_unsigned branchless 128 1024 (Z.to_nat (width f / 8)).
