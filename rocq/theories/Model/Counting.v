(** Counting sort. *)
From Coq Require Import List Arith ZArith Bool.
From Verif Require Import Lang.Mem Model.Basic.
Import ListNotations.
Local Open Scope nat_scope.

Section MinMax.
Context {A T : Type} (comp : T -> T -> bool) (proj : A -> T).

(** detail/minmax_element_and_is_sorted.h:20-77.  The result is min, max, is_sorted. *)
Definition minmax_element_and_is_sorted (first last : nat) : M A (nat * nat * bool) :=
  if first =? last then ret (first, first, true) else
  if S first =? last then ret (first, first, true) else
  let* (current, sorted) := loop (S (last - first)) (fun current =>
    let* c := less_at comp proj (S current) current in
    if (c : bool) then ret (inr (current, false)) else
    if S (S current) =? last then ret (inr (S current, true)) else ret (inl (S current))) first in
  if (sorted : bool) then ret (first, current, true) else
  let* (mn, mx) := minmax_element comp proj (S current) last in
  let* c1 := less_at comp proj mn first in
  let* c2 := less_at comp proj mx current in
  ret (if (c1 : bool) then mn else first, if (c2 : bool) then current else mx, false).
End MinMax.

(** An integer type: how many bits, is it signed?  (bool is not modelled: it cannot be incremented.) *)
Record int_type := { bits : Z; signed : bool }.
Local Open Scope Z_scope.
Definition type_min (t : int_type) : Z := if signed t then - 2 ^ (bits t - 1) else 0.
Definition type_max (t : int_type) : Z := if signed t then 2 ^ (bits t - 1) - 1 else 2 ^ bits t - 1.
Definition fits (t : int_type) (z : Z) : bool := (type_min t <=? z) && (z <=? type_max t).
(** Conversion to the type: modular. *)
Definition convert (t : int_type) (z : Z) : Z :=
  if signed t then (z + 2 ^ (bits t - 1)) mod 2 ^ bits t - 2 ^ (bits t - 1) else z mod 2 ^ bits t.
Definition int32 : int_type := {| bits := 32; signed := true |}.
(** std::ptrdiff_t. *)
Definition ptrdiff : int_type := {| bits := 64; signed := true |}.
(** The type of an arithmetic expression on values of the type: int if the type is narrower (integral promotions). *)
Definition promoted (t : int_type) : int_type := if bits t <? 32 then int32 else t.
(** The result of an arithmetic operation: overflow is undefined for signed types, modular for the others. *)
Definition arith {A} (t : int_type) (z : Z) : M A Z :=
  let p := promoted t in
  if signed p then (if fits p z then ret z else ub) else ret (convert p z).
(** [++x] or [--x], [z] being [x + 1] or [x - 1]. *)
Definition step {A} (t : int_type) (z : Z) : M A Z := let* z := arith t z in ret (convert t z).

Section Counting.
Variable t : int_type.
Local Open Scope nat_scope.

(** std::fill_n. *)
Fixpoint fill_n (first count : nat) (v : Z) : M Z nat :=
  match count with
  | 0 => ret first
  | S count => put first v ;; fill_n (S first) count v
  end.

(** detail/counting_sort.h:30-36 and 57-63: the value range, in difference_type, and the counts.  If the range is not positive
    either operator new throws or the vector has no element: [ub]. *)
Definition make_counts (mn mx : Z) : M Z (list nat) :=
  let* d := arith t (mx - mn) in
  let* d := arith t (d + 1) in
  let d := convert ptrdiff d in
  if (d <=? 0)%Z then ub else ret (repeat 0 (Z.to_nat d)).

(** detail/counting_sort.h:40-42 and 67-69. *)
Definition count_values (first last : nat) (mn : Z) (counts : list nat) : M Z (list nat) :=
  loop (S (last - first)) (fun '(it, counts) =>
    if it =? last then ret (inr counts) else
    let* x := get it in
    let* d := arith t (x - mn) in
    let d := convert ptrdiff d in
    if (d <? 0)%Z then ub else
    match nth_error counts (Z.to_nat d) with
    | None => ub
    | Some c => ret (inl (S it, upd (Z.to_nat d) (S c) counts))
    end) (first, counts).

(** detail/counting_sort.h:44-46 ([inc] is 1) and 71-74 ([inc] is -1, with the counts in reverse order). *)
Fixpoint fill_counts (inc : Z) (counts : list nat) (first : nat) (v : Z) : M Z unit :=
  match counts with
  | [] => ret tt
  | count :: counts =>
      let* next := step t (v + inc) in
      let* first := fill_n first count v in
      fill_counts inc counts first next
  end.

(** detail/counting_sort.h:22-47. *)
Definition counting_sort : range_prog Z := fun first last =>
  let* (imin, imax, sorted) := minmax_element_and_is_sorted Z.ltb (fun x => x) first last in
  if (sorted : bool) then ret tt else
  let* mn := get imin in
  let* mx := get imax in
  let* counts := make_counts mn mx in
  let* counts := count_values first last mn counts in
  fill_counts 1 counts first mn.

(** detail/counting_sort.h:49-75. *)
Definition reverse_counting_sort : range_prog Z := fun first last =>
  let* (imin, imax, sorted) := minmax_element_and_is_sorted Z.gtb (fun x => x) first last in
  if (sorted : bool) then ret tt else
  let* mn := get imax in
  let* mx := get imin in
  let* counts := make_counts mn mx in
  let* counts := count_values first last mn counts in
  fill_counts (-1) (rev counts) first mx.

(** sorters/counting_sorter.h:29-60: without comparator, with std::greater. *)
Definition counting_sorter (greater : bool) : range_prog Z := if greater then reverse_counting_sort else counting_sort.
End Counting.
