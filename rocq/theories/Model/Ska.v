(** ska_sort on integral keys. *)
From Coq Require Import List Arith NArith ZArith Bool.
From Verif Require Import Lang.Mem Model.Basic Model.Quick Model.Pdq Model.Indirect Model.Counting.
Import ListNotations.
Local Open Scope nat_scope.

Section Model.
(** [less] is std::less<> on the projected elements, [sub_key] is to_unsigned_or_bool.  [branchless] is a choice of pdqsort. *)
Context {A T : Type} (less : T -> T -> bool) (proj : A -> T) (sub_key : T -> N) (branchless : bool).
(** The template parameters StdSortThreshold and AmericanFlagSortThreshold. *)
Variables (std_sort_threshold american_flag_sort_threshold : nat).

(** detail/ska_sort.h:508-514.  [k] is NumBytes - Offset: the shift is by [k - 1] bytes, then the conversion to std::uint8_t keeps one. *)
Definition current_byte (k : nat) (x : A) : nat := N.to_nat ((sub_key (proj x) / 256 ^ N.of_nat (k - 1)) mod 256)%N.

(** An array of the stack that is not initialized: reading an element before it is assigned is undefined. *)
Definition rd_init {X} (v : list (option X)) (i : nat) : M A X :=
  let* o := rd v i in match o with Some x => ret x | None => ub end.

(** detail/ska_sort.h:553-556, 627-630.  The fields [count] and [offset] of the partitions are the same object (lines 189-193): the list
    holds one number for each partition. *)
Definition count_bytes (k first last : nat) : M A (list nat) :=
  loop (S (last - first)) (fun '(it, offset) =>
    if it =? last then ret (inr offset) else
    let* x := get it in
    let* c := rd offset (current_byte k x) in
    let* offset := wr offset (current_byte k x) (S c) in
    ret (inl (S it, offset))) (first, repeat 0 256).

(** detail/ska_sort.h:557-568.  The result: the offsets, the next offsets, the partitions that are not empty. *)
Definition american_partitions (offset : list nat) : M A (list nat * list (option nat) * list nat) :=
  loop (S 256) (fun '(i, total, offset, next_offset, remaining) =>
    if i <? 256 then
      let* count := rd offset i in
      if count =? 0 then ret (inl (S i, total, offset, next_offset, remaining)) else
      let* offset := wr offset i total in
      let total := total + count in
      let* next_offset := wr next_offset i (Some total) in
      ret (inl (S i, total, offset, next_offset, remaining ++ [i]))
    else ret (inr (offset, next_offset, remaining))) (0, 0, offset, repeat None 256, []).

(** detail/ska_sort.h:583-593: the next block that is not complete, with its number, its offset and its end; nothing if it is the last block. *)
Definition next_block (offset : list nat) (next_offset : list (option nat)) (remaining : list nat) (current : nat) : M A (option (nat * nat * nat)) :=
  loop (S (length remaining)) (fun current =>
    let current := S current in
    if current =? length remaining - 1 then ret (inr None) else
    let* b := rd remaining current in
    let* o := rd offset b in
    let* n := rd_init next_offset b in
    if o =? n then ret (inl current) else ret (inr (Some (current, o, n)))) current.

(** detail/ska_sort.h:569-601. *)
Definition american_swaps (k first last : nat) (offset : list nat) (next_offset : list (option nat)) (remaining : list nat) : M A unit :=
  if length remaining <=? 1 then ret tt else
  let* b0 := rd remaining 0 in
  let* n0 := rd_init next_offset b0 in
  let last_element := last - 1 in
  loop (S (2 * (last - first))) (fun '(it, current, block_end, offset) =>
    let* x := get it in
    let block := current_byte k x in
    let* b := rd remaining current in
    if block =? b then
      let it := S it in
      if it =? last_element then ret (inr tt) else
      if it =? block_end then
        let* next := next_block offset next_offset remaining current in
        match next with
        | None => ret (inr tt)
        | Some (current, o, n) => ret (inl (first + o, current, first + n, offset))
        end
      else ret (inl (it, current, block_end, offset))
    else
      let* o := rd offset block in
      let* offset := wr offset block (S o) in
      swap it (first + o) ;;
      ret (inl (it, current, block_end, offset))) (first, 0, first + n0, offset).

(** detail/ska_sort.h:631-643. *)
Definition ska_partitions (offset : list nat) : M A (list nat * list (option nat) * list nat) :=
  loop (S 256) (fun '(i, total, offset, next_offset, remaining) =>
    if i <? 256 then
      let* count := rd offset i in
      if count =? 0 then
        let* next_offset := wr next_offset i (Some total) in
        ret (inl (S i, total, offset, next_offset, remaining))
      else
        let* offset := wr offset i total in
        let total := total + count in
        let* next_offset := wr next_offset i (Some total) in
        ret (inl (S i, total, offset, next_offset, remaining ++ [i]))
    else ret (inr (offset, next_offset, remaining))) (0, 0, offset, repeat None 256, []).

(** detail/ska_sort.h:149-181, 655-661: unroll_loop_four_times calls the function on [n] consecutive iterators.  Simplified: the loop is
    not unrolled.  The function captures the address of the array: the offsets are those of the caller. *)
Definition swap_loop (k first it n : nat) (offset : list nat) : M A (list nat) :=
  loop (S n) (fun '(it, n, offset) =>
    if n =? 0 then ret (inr offset) else
    let* x := get it in
    let* o := rd offset (current_byte k x) in
    let* offset := wr offset (current_byte k x) (S o) in
    swap it (first + o) ;;
    ret (inl (S it, n - 1, offset))) (it, n, offset).

(** detail/ska_sort.h:648-663: the predicate given to the partition, with the offsets it modifies. *)
Definition ska_pass (k first : nat) (next_offset : list (option nat)) (p : nat) (offset : list nat) : M A (bool * list nat) :=
  let* o := rd offset p in
  let* n := rd_init next_offset p in
  if o =? n then ret (false, offset) else
  let* offset := swap_loop k first (first + o) (n - o) offset in
  let* o := rd offset p in
  ret (negb (o =? n), offset).

(** detail/partition.h:53-77 (bidirectional iterators) on an array [v] outside of the memory, with a predicate that has a state. *)
Section PartitionArray.
Context {X S : Type} (pred : X -> S -> M A (bool * S)).
Definition scan_forward (v : list X) (first last : nat) (s : S) : M A (nat * bool * S) :=
  loop (Datatypes.S (last - first)) (fun '(first, s) =>
    if first =? last then ret (inr (first, true, s)) else
    let* x := rd v first in
    let* (b, s) := pred x s in
    if (b : bool) then ret (inl (Datatypes.S first, s)) else ret (inr (first, false, s))) (first, s).
Definition scan_backward (v : list X) (first last : nat) (s : S) : M A (nat * bool * S) :=
  loop (Datatypes.S (last - first)) (fun '(last, s) =>
    let last := last - 1 in
    if first =? last then ret (inr (last, true, s)) else
    let* x := rd v last in
    let* (b, s) := pred x s in
    if (b : bool) then ret (inr (last, false, s)) else ret (inl (last, s))) (last, s).
Definition partition_array (v : list X) (first last : nat) (s : S) : M A (nat * list X * S) :=
  loop (Datatypes.S (last - first)) (fun '(first, last, v, s) =>
    let* (first, done, s) := scan_forward v first last s in
    if (done : bool) then ret (inr (first, v, s)) else
    let* (last, done, s) := scan_backward v first last s in
    if (done : bool) then ret (inr (first, v, s)) else
    let* x := rd v first in
    let* y := rd v last in
    let* v := wr v first y in
    let* v := wr v last x in
    ret (inl (Datatypes.S first, last, v, s))) (first, last, v, s).
End PartitionArray.

(** detail/ska_sort.h:644-664.  The result: the remaining partitions, in another order. *)
Definition ska_swaps (k first last : nat) (offset : list nat) (next_offset : list (option nat)) (remaining : list nat) : M A (list nat) :=
  loop (S (S (last - first))) (fun '(last_remaining, remaining, offset) =>
    if 1 <? last_remaining then
      let* (last_remaining, remaining, offset) := partition_array (ska_pass k first next_offset) remaining 0 last_remaining offset in
      ret (inl (last_remaining, remaining, offset))
    else ret (inr remaining)) (length remaining, remaining, offset).

(** detail/ska_sort.h:478-498. *)
Definition std_sort_if_less_than_threshold (first last num_elements : nat) : M A bool :=
  if num_elements <=? 1 then ret true else
  if std_sort_threshold <=? num_elements then ret false else
  pdqsort less proj true branchless first last ;; ret true.

Section Rec.
(** The parameter next_sort of UnsignedInplaceSorter, a function pointer along with the sort_data it is to be called with: the sort of the ranges of
    elements that have the same key; [None] is the null pointer. *)
Variable next_sort : option (nat -> nat -> nat -> M A unit).
Definition has_next : bool := match next_sort with Some _ => true | None => false end.

Section Byte.
(** The sort on the next byte. *)
Variable next : nat -> nat -> nat -> M A unit.

(** detail/ska_sort.h:531-543. *)
Definition sort_partition (first last num_elements : nat) : M A unit :=
  let* done := std_sort_if_less_than_threshold first last num_elements in
  if (done : bool) then ret tt else next first last num_elements.

(** detail/ska_sort.h:602-616. *)
Fixpoint american_recurse (first : nat) (next_offset : list (option nat)) (remaining : list nat) (start_offset : nat) : M A unit :=
  match remaining with
  | [] => ret tt
  | p :: remaining =>
    let* end_offset := rd_init next_offset p in
    sort_partition (first + start_offset) (first + end_offset) (end_offset - start_offset) ;;
    american_recurse first next_offset remaining end_offset
  end.

(** detail/ska_sort.h:665-675.  [remaining] is in the order of the iterations: from the last to the first. *)
Fixpoint ska_recurse (first : nat) (next_offset : list (option nat)) (remaining : list nat) : M A unit :=
  match remaining with
  | [] => ret tt
  | p :: remaining =>
    let* start_offset := if p =? 0 then ret 0 else rd_init next_offset (p - 1) in
    let* end_offset := rd_init next_offset p in
    sort_partition (first + start_offset) (first + end_offset) (end_offset - start_offset) ;;
    ska_recurse first next_offset remaining
  end.

(** detail/ska_sort.h:545-617. *)
Definition american_flag_sort (k first last : nat) : M A unit :=
  let* offset := count_bytes k first last in
  let* (offset, next_offset, remaining) := american_partitions offset in
  american_swaps k first last offset next_offset remaining ;;
  if negb (negb (k =? 1) || has_next) then ret tt else american_recurse first next_offset remaining 0.

(** detail/ska_sort.h:619-676. *)
Definition ska_byte_sort (k first last : nat) : M A unit :=
  let* offset := count_bytes k first last in
  let* (offset, next_offset, remaining) := ska_partitions offset in
  let* remaining := ska_swaps k first last offset next_offset remaining in
  if negb (negb (k =? 1) || has_next) then ret tt else ska_recurse first next_offset (rev remaining).
End Byte.

(** detail/ska_sort.h:516-529: [UnsignedInplaceSorter]; [k] is the number of bytes left.  In the case of no byte left
    (lines 679-693) the next sort is called; calling a null pointer is undefined. *)
Fixpoint unsigned_inplace_sort (k first last num_elements : nat) : M A unit :=
  match k with
  | 0 => match next_sort with Some sort => sort first last num_elements | None => ub end
  | S k' =>
    if num_elements <? american_flag_sort_threshold then american_flag_sort (unsigned_inplace_sort k') k first last
    else ska_byte_sort (unsigned_inplace_sort k') k first last
  end.

(** detail/ska_sort.h:800-820: the keys of type bool. *)
Definition bool_inplace_sort (first last : nat) : M A unit :=
  let* middle := partition_bidirectional (fun i => let* x := get i in ret (N.eqb (sub_key (proj x)) 0)) first last in
  match next_sort with Some sort => sort first middle (middle - first) ;; sort middle last (last - middle) | None => ret tt end.
End Rec.

(** detail/ska_sort.h:878-917 when there is one sub-key, hence no next sort; [bytes] is the size of the key, 0 if it is bool. *)
Definition inplace_radix_sort (bytes first last : nat) : M A unit :=
  let* done := std_sort_if_less_than_threshold first last (last - first) in
  if (done : bool) then ret tt else
  if bytes =? 0 then bool_inplace_sort None first last else unsigned_inplace_sort None bytes first last (last - first).
End Model.

(** The integral types: bool; a type of the given size, signed or not, other than char and wchar_t; char or wchar_t. *)
Inductive key_type := Bool | Integer (t : int_type) | Character (t : int_type).
Local Open Scope Z_scope.
Definition key_min (t : key_type) : Z := match t with Bool => 0 | Integer t | Character t => type_min t end.
Definition key_max (t : key_type) : Z := match t with Bool => 1 | Integer t | Character t => type_max t end.
Definition key_bytes (t : key_type) : nat := match t with Bool => 0%nat | Integer t | Character t => Z.to_nat (bits t / 8) end.

(** detail/ska_sort.h:40-115: unsigned types are left as they are, 2 ^ (bits - 1) is added to the signed ones after a conversion to the
    unsigned type, but not to char (lines 56-60) and wchar_t (lines 74-78), whatever their sign. *)
Definition to_unsigned_or_bool (t : key_type) (z : Z) : N :=
  match t with
  | Bool => Z.to_N z
  | Integer t => Z.to_N (if signed t then (z mod 2 ^ bits t + 2 ^ (bits t - 1)) mod 2 ^ bits t else z)
  | Character t => Z.to_N (z mod 2 ^ bits t)
  end.

(** detail/ska_sort.h:919-926, sorters/ska_sorter.h:29-60. *)
Definition ska_sorter {A} (t : key_type) (proj : A -> Z) (branchless : bool) : range_prog A :=
  inplace_radix_sort Z.ltb proj (to_unsigned_or_bool t) branchless 128 1024 (key_bytes t).
