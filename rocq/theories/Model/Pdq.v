(** Pattern-defeating quicksort. *)
From Coq Require Import List Arith Bool.
From Verif Require Import Lang.Mem Model.Basic Model.Insertion Model.Heap Model.Indirect.
Import ListNotations.

Section Model.
Context {A T : Type} (comp : T -> T -> bool) (proj : A -> T).

(** detail/iter_sort3.h:18-27. *)
Definition iter_sort3 (a b c : nat) : M A nat :=
  iter_swap_if comp proj b c ;;
  iter_swap_if comp proj a c ;;
  iter_swap_if comp proj a b ;;
  ret b.

(** detail/bitops.h:78-87, [log2] of a signed integer: the number of times it can be halved before it is 0. *)
Fixpoint log2_loop (fuel n log : nat) : nat :=
  match fuel with
  | 0 => log
  | S fuel => if n / 2 =? 0 then log else log2_loop fuel (n / 2) (S log)
  end.
Definition log2 (n : nat) : nat := log2_loop n n 0.

(** detail/pdqsort.h:54-70. *)
Definition insertion_sort_threshold := 24.
Definition ninther_threshold := 128.
Definition partial_insertion_sort_limit := 8.
Definition block_size := 64.

(** [*dst = iter_move(src)] where the two iterators may be equal.  Assigning an object to itself
    is [UB] unless it is a moved-from object and [lenient] holds: then it stays moved-from (the rule
    of tests/testing-tools/move_only.h:89-94).  docs/Home.md:28 says that the algorithms never do it. *)
Definition move_to_self (lenient : bool) (src dst : nat) : M A unit :=
  if src =? dst then fun m =>
    match nth_error m src with
    | Some Moved => if lenient then Ok tt m else UB
    | _ => UB
    end
  else move_to src dst.

(** detail/pdqsort.h:74-102.  The [do ... while] of lines 94-97 has fuel for [cur] moves. *)
Definition unguarded_insertion_sort (first last : nat) : M A unit :=
  if first =? last then ret tt else
  loop (S (last - first)) (fun cur =>
    if cur =? last then ret (inr tt) else
    let sift := cur in
    let sift_1 := cur - 1 in
    let* c := less_at comp proj sift sift_1 in
    (if c then
      let* tmp := take sift in
      let* sift := loop (S cur) (fun '(sift, sift_1) =>
        move_to sift_1 sift ;;
        let sift := sift - 1 in
        if sift_1 =? 0 then ub else
        let sift_1 := sift_1 - 1 in
        let* y := get sift_1 in
        if comp (proj tmp) (proj y) then ret (inl (sift, sift_1)) else ret (inr sift)) (sift, sift_1) in
      put sift tmp
    else ret tt) ;;
    ret (inl (S cur))) (S first).

(** detail/pdqsort.h:107-140. *)
Definition partial_insertion_sort (first last : nat) : M A bool :=
  if first =? last then ret true else
  loop (S (last - first)) (fun '(cur, limit) =>
    if cur =? last then ret (inr true) else
    let sift := cur in
    let sift_1 := cur - 1 in
    let* c := less_at comp proj sift sift_1 in
    let* limit := (if c then
      let* tmp := take sift in
      let* sift := loop (S (cur - first)) (fun '(sift, sift_1) =>
        move_to sift_1 sift ;;
        let sift := sift - 1 in
        if sift =? first then ret (inr sift) else
        let sift_1 := sift_1 - 1 in
        let* y := get sift_1 in
        if comp (proj tmp) (proj y) then ret (inl (sift, sift_1)) else ret (inr sift)) (sift, sift_1) in
      put sift tmp ;;
      ret (limit + (cur - sift))
    else ret limit) in
    if partial_insertion_sort_limit <? limit then ret (inr false) else
    ret (inl (S cur, limit))) (S first, 0).

(** An array of [unsigned char] without initialiser: reading an element which
    was not written is [UB], as is an index out of bounds. *)
Definition rd_init (v : list (option nat)) (i : nat) : M A nat :=
  let* x := rd v i in
  match x with Some n => ret n | None => ub end.

(** detail/pdqsort.h:157-185.  The array pointers are an array and the index of the first element used. *)
Definition swap_offsets (first last : nat) (offsets_l offsets_r : list (option nat)) (start_l start_r num : nat)
    (use_swaps : bool) : M A unit :=
  if use_swaps then
    loop (S num) (fun i =>
      if i <? num then
        let* ol := rd_init offsets_l (start_l + i) in
        let* or := rd_init offsets_r (start_r + i) in
        swap (first + ol) (last - or) ;;
        ret (inl (S i))
      else ret (inr tt)) 0
  else if 0 <? num then
    let* ol := rd_init offsets_l start_l in
    let* or := rd_init offsets_r start_r in
    let l := first + ol in
    let r := last - or in
    let* tmp := take l in
    move_to r l ;;
    let* r := loop (S num) (fun '(i, r) =>
      if i <? num then
        let* ol := rd_init offsets_l (start_l + i) in
        let l := first + ol in
        move_to l r ;;
        let* or := rd_init offsets_r (start_r + i) in
        let r := last - or in
        move_to r l ;;
        ret (inl (S i, r))
      else ret (inr r)) (1, r) in
    put r tmp
  else ret tt.

(** detail/pdqsort.h:211, 361, 377, 409 and 414: [while (p( *++first));]. *)
Definition scan_up (p : A -> bool) (bound : nat) (first : nat) : M A nat :=
  loop (S bound) (fun first =>
    let first := S first in
    let* x := get first in
    if p x then ret (inl first) else ret (inr first)) first.

(** detail/pdqsort.h:216, 366, 378, 406 and 413: [while (p( *--last));]. *)
Definition scan_down (p : A -> bool) (last : nat) : M A nat :=
  loop (S last) (fun last =>
    if last =? 0 then ub else
    let last := last - 1 in
    let* x := get last in
    if p x then ret (inl last) else ret (inr last)) last.

(** detail/pdqsort.h:215 and 365: [while (first < last && p( *--last));]. *)
Definition scan_down_guarded (p : A -> bool) (first last : nat) : M A nat :=
  loop (S last) (fun last =>
    if first <? last then
      let last := last - 1 in
      let* x := get last in
      if p x then ret (inl last) else ret (inr last)
    else ret (inr last)) last.

(** detail/pdqsort.h:408: [while (first < last && p( *++first));]. *)
Definition scan_up_guarded (p : A -> bool) (first last : nat) : M A nat :=
  loop (S (last - first)) (fun first =>
    if first <? last then
      let first := S first in
      let* x := get first in
      if p x then ret (inl first) else ret (inr first)
    else ret (inr first)) first.

(** detail/pdqsort.h:253-270.  The loop of lines 254-263 is unrolled 8 times and [block_size] is a multiple of 8. *)
Definition fill_left (pivot : A) (left_split : nat) (first num_l : nat) (offsets_l : list (option nat))
    : M A (nat * nat * list (option nat)) :=
  let bound := if block_size <=? left_split then block_size else left_split in
  loop (S bound) (fun '(i, first, num_l, offsets_l) =>
    if i <? bound then
      let* offsets_l := wr offsets_l num_l (Some i) in
      let i := S i in
      let* x := get first in
      let num_l := num_l + (if negb (comp (proj x) (proj pivot)) then 1 else 0) in
      ret (inl (i, S first, num_l, offsets_l))
    else ret (inr (first, num_l, offsets_l))) (0, first, num_l, offsets_l).

(** detail/pdqsort.h:272-288. *)
Definition fill_right (pivot : A) (right_split : nat) (last num_r : nat) (offsets_r : list (option nat))
    : M A (nat * nat * list (option nat)) :=
  let bound := if block_size <=? right_split then block_size else right_split in
  loop (S bound) (fun '(i, last, num_r, offsets_r) =>
    if i <? bound then
      let i := S i in
      let* offsets_r := wr offsets_r num_r (Some i) in
      if last =? 0 then ub else
      let last := last - 1 in
      let* x := get last in
      let num_r := num_r + (if comp (proj x) (proj pivot) then 1 else 0) in
      ret (inl (i, last, num_r, offsets_r))
    else ret (inr (last, num_r, offsets_r))) (0, last, num_r, offsets_r).

(** The local variables of the block partitioning, detail/pdqsort.h:222-243. *)
Record blocks := Blocks {
  b_first : nat; b_last : nat; b_base_l : nat; b_base_r : nat;
  b_num_l : nat; b_num_r : nat; b_start_l : nat; b_start_r : nat;
  b_offsets_l : list (option nat); b_offsets_r : list (option nat) }.

(** detail/pdqsort.h:246-308, one iteration. *)
Definition block_step (pivot : A) (s : blocks) : M A blocks :=
  let num_unknown := b_last s - b_first s in
  let left_split := if b_num_l s =? 0 then (if b_num_r s =? 0 then num_unknown / 2 else num_unknown) else 0 in
  let right_split := if b_num_r s =? 0 then num_unknown - left_split else 0 in
  let* (first, num_l, offsets_l) := fill_left pivot left_split (b_first s) (b_num_l s) (b_offsets_l s) in
  let* (last, num_r, offsets_r) := fill_right pivot right_split (b_last s) (b_num_r s) (b_offsets_r s) in
  let num := Nat.min num_l num_r in
  swap_offsets (b_base_l s) (b_base_r s) offsets_l offsets_r (b_start_l s) (b_start_r s) num (num_l =? num_r) ;;
  let num_l := num_l - num in
  let num_r := num_r - num in
  let start_l := b_start_l s + num in
  let start_r := b_start_r s + num in
  ret (Blocks first last
    (if num_l =? 0 then first else b_base_l s) (if num_r =? 0 then last else b_base_r s)
    num_l num_r (if num_l =? 0 then 0 else start_l) (if num_r =? 0 then 0 else start_r)
    offsets_l offsets_r).

(** detail/pdqsort.h:234-326: the blocks are filled and emptied, then what is left over is swapped into place.  The result is [first]. *)
Definition block_partition (pivot : A) (first last : nat) : M A nat :=
  let* s := loop (S (last - first)) (fun s =>
    if b_first s <? b_last s then
      let* s := block_step pivot s in ret (inl s)
    else ret (inr s))
    (Blocks first last first last 0 0 0 0 (repeat None block_size) (repeat None block_size)) in
  let* (first, last) :=
    (if b_num_l s =? 0 then ret (b_first s, b_last s) else
     let* last := loop (S (b_num_l s)) (fun '(num_l, last) =>
       match num_l with
       | 0 => ret (inr last)
       | S num_l =>
           let* o := rd_init (b_offsets_l s) (b_start_l s + num_l) in
           if last =? 0 then ub else
           let last := last - 1 in
           swap (b_base_l s + o) last ;;
           ret (inl (num_l, last))
       end) (b_num_l s, b_last s) in
     ret (last, last)) in
  if b_num_r s =? 0 then ret first else
  loop (S (b_num_r s)) (fun '(num_r, first) =>
    match num_r with
    | 0 => ret (inr first)
    | S num_r =>
        let* o := rd_init (b_offsets_r s) (b_start_r s + num_r) in
        swap (b_base_r s - o) first ;;
        ret (inl (num_r, S first))
    end) (b_num_r s, first).

Section Lenient.
Variable lenient : bool.

(** detail/pdqsort.h:192-335. *)
Definition partition_right_branchless (first0 last0 : nat) : M A (nat * bool) :=
  let* pivot := take first0 in
  let* first := scan_up (fun x => comp (proj x) (proj pivot)) (last0 - first0) first0 in
  let* last := (if first - 1 =? first0
    then scan_down_guarded (fun x => negb (comp (proj x) (proj pivot))) first last0
    else scan_down (fun x => negb (comp (proj x) (proj pivot))) last0) in
  let already_partitioned := last <=? first in
  let* first := (if negb already_partitioned then
      swap first last ;;
      block_partition pivot (S first) last
    else ret first) in
  let pivot_pos := first - 1 in
  move_to_self lenient pivot_pos first0 ;;
  put pivot_pos pivot ;;
  ret (pivot_pos, already_partitioned).

(** detail/pdqsort.h:342-387. *)
Definition partition_right (first0 last0 : nat) : M A (nat * bool) :=
  let* pivot := take first0 in
  let* first := scan_up (fun x => comp (proj x) (proj pivot)) (last0 - first0) first0 in
  let* last := (if first - 1 =? first0
    then scan_down_guarded (fun x => negb (comp (proj x) (proj pivot))) first last0
    else scan_down (fun x => negb (comp (proj x) (proj pivot))) last0) in
  let already_partitioned := last <=? first in
  let* first := loop (S (last0 - first0)) (fun '(first, last) =>
    if first <? last then
      swap first last ;;
      let* first := scan_up (fun x => comp (proj x) (proj pivot)) (last0 - first0) first in
      let* last := scan_down (fun x => negb (comp (proj x) (proj pivot))) last in
      ret (inl (first, last))
    else ret (inr first)) (first, last) in
  let pivot_pos := first - 1 in
  move_to_self lenient pivot_pos first0 ;;
  put pivot_pos pivot ;;
  ret (pivot_pos, already_partitioned).

(** detail/pdqsort.h:391-422. *)
Definition partition_left (first0 last0 : nat) : M A nat :=
  let* pivot := take first0 in
  let* last := scan_down (fun x => comp (proj pivot) (proj x)) last0 in
  let* first := (if last + 1 =? last0
    then scan_up_guarded (fun x => negb (comp (proj pivot) (proj x))) first0 last
    else scan_up (fun x => negb (comp (proj pivot) (proj x))) (last0 - first0) first0) in
  let* last := loop (S (last0 - first0)) (fun '(first, last) =>
    if first <? last then
      swap first last ;;
      let* last := scan_down (fun x => comp (proj pivot) (proj x)) last in
      let* first := scan_up (fun x => negb (comp (proj pivot) (proj x))) (last0 - first0) first in
      ret (inl (first, last))
    else ret (inr last)) (first, last) in
  let pivot_pos := last in
  move_to_self lenient pivot_pos first0 ;;
  put pivot_pos pivot ;;
  ret pivot_pos.

(** detail/pdqsort.h:501-523: swaps that break patterns after a highly unbalanced partition. *)
Definition break_patterns (first last pivot_pos l_size r_size : nat) : M A unit :=
  (if insertion_sort_threshold <=? l_size then
    swap first (first + l_size / 4) ;;
    swap (pivot_pos - 1) (pivot_pos - l_size / 4) ;;
    if ninther_threshold <? l_size then
      swap (first + 1) (first + (l_size / 4 + 1)) ;;
      swap (first + 2) (first + (l_size / 4 + 2)) ;;
      swap (pivot_pos - 2) (pivot_pos - (l_size / 4 + 1)) ;;
      swap (pivot_pos - 3) (pivot_pos - (l_size / 4 + 2))
    else ret tt
  else ret tt) ;;
  (if insertion_sort_threshold <=? r_size then
    swap (pivot_pos + 1) (pivot_pos + (1 + r_size / 4)) ;;
    swap (last - 1) (last - r_size / 4) ;;
    if ninther_threshold <? r_size then
      swap (pivot_pos + 2) (pivot_pos + (2 + r_size / 4)) ;;
      swap (pivot_pos + 3) (pivot_pos + (3 + r_size / 4)) ;;
      swap (last - 2) (last - (1 + r_size / 4)) ;;
      swap (last - 3) (last - (2 + r_size / 4))
    else ret tt
  else ret tt).

(** detail/pdqsort.h:459-468: the pivot is moved to [first]. *)
Definition choose_pivot (first last : nat) : M A unit :=
  let size := last - first in
  let s2 := size / 2 in
  if ninther_threshold <? size then
    iter_sort3 first (first + s2) (last - 1) ;;
    iter_sort3 (first + 1) (first + (s2 - 1)) (last - 2) ;;
    iter_sort3 (first + 2) (first + (s2 + 1)) (last - 3) ;;
    iter_sort3 (first + (s2 - 1)) (first + s2) (first + (s2 + 1)) ;;
    swap first (first + s2)
  else
    iter_sort3 (first + s2) first (last - 1) ;; ret tt.

(** detail/pdqsort.h:425-540.  [branchless] is the constant of lines 436-438.  The [while (true)] loop is
    a tail call.  [bad_allowed] is positive here; a decrement of 0 does not occur. *)
Fixpoint pdqsort_loop (branchless : bool) (fuel first last bad_allowed : nat) (leftmost : bool) : M A unit :=
  match fuel with
  | 0 => nofuel
  | S fuel =>
    let size := last - first in
    if size <? insertion_sort_threshold then
      if leftmost then insertion_sort comp proj first last
      else unguarded_insertion_sort first last
    else
    choose_pivot first last ;;
    let* equal_left := (if leftmost then ret false
      else if first =? 0 then ub
      else let* c := less_at comp proj (first - 1) first in ret (negb c)) in
    if (equal_left : bool) then
      let* p := partition_left first last in
      pdqsort_loop branchless fuel (p + 1) last bad_allowed leftmost
    else
    let* (pivot_pos, already_partitioned) := (if branchless
      then partition_right_branchless first last else partition_right first last) in
    let l_size := pivot_pos - first in
    let r_size := last - (pivot_pos + 1) in
    let highly_unbalanced := (l_size <? size / 8) || (r_size <? size / 8) in
    let rest bad_allowed :=
      pdqsort_loop branchless fuel first pivot_pos bad_allowed leftmost ;;
      pdqsort_loop branchless fuel (pivot_pos + 1) last bad_allowed false in
    if highly_unbalanced then
      let bad_allowed := bad_allowed - 1 in
      if bad_allowed =? 0 then heapsort comp proj first last else
      break_patterns first last pivot_pos l_size r_size ;;
      rest bad_allowed
    else
      let* done := (if (already_partitioned : bool) then
          let* c := partial_insertion_sort first pivot_pos in
          if (c : bool) then partial_insertion_sort (pivot_pos + 1) last else ret false
        else ret false) in
      if (done : bool) then ret tt else rest bad_allowed
  end.

(** detail/pdqsort.h:543-554. *)
Definition pdqsort (branchless : bool) (first last : nat) : M A unit :=
  let size := last - first in
  if size <? 2 then ret tt else
  pdqsort_loop branchless (S size) first last (log2 size) true.
End Lenient.

(** sorters/pdq_sorter.h:40-54. *)
Definition pdq_sorter (lenient branchless : bool) : range_prog A := pdqsort lenient branchless.
End Model.
