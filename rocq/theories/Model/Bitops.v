(** The bit operations of detail/bitops.h, on the integer types of a machine.  [None]: undefined behaviour. *)
From Coq Require Import ZArith Bool.
From Verif Require Import Model.Counting.
Local Open Scope Z_scope.

(** std::numeric_limits<T>::digits. *)
Definition digits (t : int_type) : Z := if signed t then bits t - 1 else bits t.
(** std::make_unsigned_t<T>. *)
Definition make_unsigned (t : int_type) : int_type := {| bits := bits t; signed := false |}.

(** [n >> i]: undefined unless [i] is less than the width of the promoted type.  The shift of a negative number is arithmetic: this is
    implementation-defined before C++20. *)
Definition shift_right (t : int_type) (n i : Z) : option Z :=
  if (0 <=? i) && (i <? bits (promoted t)) then Some (Z.shiftr n i) else None.
(** [n << i]: for a signed promoted type, [n] must not be negative and the result must be representable in the unsigned version of the type. *)
Definition shift_left (t : int_type) (n i : Z) : option Z :=
  let p := promoted t in
  if (0 <=? i) && (i <? bits p) && (negb (signed p) || ((0 <=? n) && (Z.shiftl n i <? 2 ^ bits p))) then Some (convert p (Z.shiftl n i)) else None.
(** [n + d], for the increments and the decrements: the overflow of a signed type is undefined. *)
Definition add (t : int_type) (n d : Z) : option Z :=
  let p := promoted t in
  if signed p then (if fits p (n + d) then Some (convert t (n + d)) else None) else Some (convert t (n + d)).

(** detail/bitops.h:22-29. *)
Definition as_unsigned (t : int_type) (value : Z) : Z := convert (make_unsigned t) value.

(** detail/bitops.h:37-39 and 50-52, the loop.  The index doubles, so [Z.to_nat (bits t)] steps are enough. *)
Fixpoint smear (fuel : nat) (t : int_type) (bound i n : Z) : option Z :=
  match fuel with
  | O => None
  | S fuel =>
      if i <=? bound then
        match shift_right t n i with
        | Some s => smear fuel t bound (Z.shiftl i 1) (convert t (Z.lor n s))
        | None => None
        end
      else Some n
  end.

(** detail/bitops.h:31-41. *)
Definition hyperfloor (t : int_type) (n : Z) : option Z :=
  match smear (Z.to_nat (bits t)) t (digits t / 2) 1 n with
  | Some n =>
      match shift_right t n 1 with
      | Some s => Some (convert t (Z.land n (Z.lnot s)))
      | None => None
      end
  | None => None
  end.

(** detail/bitops.h:43-55. *)
Definition hyperceil (t : int_type) (n : Z) : option Z :=
  match add t n (-1) with
  | Some n =>
      match smear (Z.to_nat (bits t)) t (digits t / 2) 1 n with
      | Some n => add t n 1
      | None => None
      end
  | None => None
  end.

(** __builtin_clz and its variants: the number of bits that are 0 above the highest bit that is 1, from the bit of weight [2 ^ (k - 1)] downwards;
    undefined if there is no bit. *)
Fixpoint clz (k : nat) (n : Z) : option Z :=
  match k with
  | O => None
  | S k => if Z.testbit n (Z.of_nat k) then Some 0 else match clz k n with Some c => Some (1 + c) | None => None end
  end.

(** detail/bitops.h:59-77: the overloads of GCC and Clang for unsigned int, unsigned long and unsigned long long. *)
Definition log2_builtin (t : int_type) (n : Z) : option Z :=
  match clz (Z.to_nat (bits t)) n with
  | Some c => Some (convert t (digits t - c - 1))
  | None => None
  end.

(** detail/bitops.h:83-85, the loop. *)
Fixpoint log2_loop (fuel : nat) (t : int_type) (n log : Z) : option Z :=
  match fuel with
  | O => None
  | S fuel =>
      match shift_right t n 1 with
      | Some n =>
          if n =? 0 then Some log else
          match add t log 1 with
          | Some log => log2_loop fuel t n log
          | None => None
          end
      | None => None
      end
  end.
(** detail/bitops.h:78-87. *)
Definition log2 (t : int_type) (n : Z) : option Z := log2_loop (Z.to_nat (bits t)) t n 0.

(** detail/bitops.h:96-99, the loop. *)
Fixpoint ceil_log2_loop (fuel : nat) (t : int_type) (n log : Z) : option Z :=
  match fuel with
  | O => None
  | S fuel =>
      if 0 <? n then
        match add t log 1, shift_right t n 1 with
        | Some log, Some n => ceil_log2_loop fuel t n log
        | _, _ => None
        end
      else Some log
  end.
(** detail/bitops.h:89-101. *)
Definition ceil_log2 (t : int_type) (n : Z) : option Z :=
  match add t n (-1) with
  | Some n => ceil_log2_loop (S (Z.to_nat (bits t))) t n 0
  | None => None
  end.

(** detail/bitops.h:105-110: the division is that of the promoted type of the unsigned version, where the operands are not negative. *)
Definition half (t : int_type) (value : Z) : Z := convert t (Z.quot (as_unsigned t value) 2).

(** detail/bitops.h:119-131.  [x - 1] is computed in the promoted type; the assertion is part of the precondition. *)
Definition has_single_bit (t : int_type) (n : Z) : bool :=
  let x := as_unsigned t n in
  negb (x =? 0) && (Z.land x (convert (promoted (make_unsigned t)) (x - 1)) =? 0).

(** detail/bitops.h:133-141. *)
Definition rotl (t : int_type) (x s : Z) : option Z :=
  match shift_left t x s, shift_right t x (digits t - s) with
  | Some l, Some r => Some (convert t (Z.lor l r))
  | _, _ => None
  end.
