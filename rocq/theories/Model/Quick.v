(** Quicksort and introselect. *)
From Coq Require Import List Arith Bool.
From Verif Require Import Lang.Mem Model.Basic Model.Insertion Model.Pdq.
Import ListNotations.

(** detail/partition.h:29-51, the overload for forward iterators.  [pred i] is [pred( *i)]. *)
Definition partition_forward {A} (pred : nat -> M A bool) (first last : nat) : M A nat :=
  let* r := loop (S (last - first)) (fun first =>
    if first =? last then ret (inr (inr first)) else
    let* c := pred first in
    if c then ret (inl (S first)) else ret (inr (inl first))) first in
  match r with
  | inr first => ret first
  | inl first =>
    loop (S (last - first)) (fun '(first, p) =>
      let p := S p in
      if p =? last then ret (inr first) else
      let* c := pred p in
      if c then swap first p ;; ret (inl (S first, p)) else ret (inl (first, p))) (first, first)
  end.

(** detail/partition.h:53-77, the overload for bidirectional iterators. *)
Definition partition_bidirectional {A} (pred : nat -> M A bool) (first last : nat) : M A nat :=
  loop (S (last - first)) (fun '(first, last) =>
    let* r := loop (S (last - first)) (fun first =>
      if first =? last then ret (inr (inr first)) else
      let* c := pred first in
      if c then ret (inl (S first)) else ret (inr (inl first))) first in
    match r with
    | inr first => ret (inr first)
    | inl first =>
      let* r := loop (S (last - first)) (fun last =>
        let last := last - 1 in
        if first =? last then ret (inr (inr first)) else
        let* c := pred last in
        if c then ret (inr (inl last)) else ret (inl last)) last in
      match r with
      | inr first => ret (inr first)
      | inl last => swap first last ;; ret (inl (S first, last))
      end
    end) (first, last).

(** detail/partition.h:79-88.  [bidi]: the iterators are at least bidirectional. *)
Definition partition {A} (bidi : bool) (pred : nat -> M A bool) (first last : nat) : M A nat :=
  if bidi then partition_bidirectional pred first last else partition_forward pred first last.

Section Model.
Context {A T : Type} (comp : T -> T -> bool) (proj : A -> T).

(** detail/introselect.h:28-56. *)
Definition small_sort (bidi : bool) (first last : nat) : M A unit :=
  if bidi then insertion_sort comp proj first last else selection_sort comp proj first last.

(** detail/introselect.h:58-93. *)
Definition iter_median_5 (it1 it2 it3 it4 it5 : nat) : M A nat :=
  iter_swap_if comp proj it1 it2 ;;
  iter_swap_if comp proj it3 it4 ;;
  let* c := less_at comp proj it1 it3 in
  (if c then swap it1 it5 ;; iter_swap_if comp proj it1 it2
   else swap it3 it5 ;; iter_swap_if comp proj it3 it4) ;;
  let* c := less_at comp proj it1 it3 in
  if c then
    let* c := less_at comp proj it2 it3 in
    ret (if c then it3 else it2)
  else
    let* c := less_at comp proj it4 it1 in
    ret (if c then it1 else it4).

(** detail/introselect.h:95-140. *)
Definition iter_median_rest (first size : nat) : M A nat :=
  match size with
  | 0 | 1 | 2 => ret first
  | 3 =>
    iter_swap_if comp proj first (first + 1) ;;
    iter_swap_if comp proj (first + 1) (first + 2) ;;
    iter_swap_if comp proj first (first + 1) ;;
    ret (first + 1)
  | 4 =>
    iter_swap_if comp proj first (first + 1) ;;
    iter_swap_if comp proj (first + 2) (first + 3) ;;
    iter_swap_if comp proj first (first + 2) ;;
    iter_swap_if comp proj (first + 1) (first + 3) ;;
    iter_swap_if comp proj (first + 1) (first + 2) ;;
    ret (first + 1)
  | 5 => iter_median_5 first (first + 1) (first + 2) (first + 3) (first + 4)
  | _ => ub
  end.

(** detail/introselect.h:149-198; [select] is the call to introselect of line 196. *)
Definition median_of_medians (select : nat -> nat -> nat -> nat -> M A nat) (first last size : nat) : M A nat :=
  if size <=? 5 then iter_median_rest first size else
  let rounded_size := (size / 5) * 5 in
  let* (it, medians_it) := loop (S (rounded_size / 5)) (fun '(i, it, medians_it) =>
    if i <? rounded_size / 5 then
      let* median := iter_median_5 it (it + 1) (it + 2) (it + 3) (it + 4) in
      swap medians_it median ;;
      ret (inl (S i, it + 5, S medians_it))
    else ret (inr (it, medians_it))) (0, first, first) in
  let* medians_it := (if rounded_size =? size then ret medians_it else
    let* last_median := iter_median_rest it (size - rounded_size) in
    swap last_median medians_it ;;
    ret (S medians_it)) in
  let last := medians_it in
  let size := if rounded_size =? size then size / 5 else size / 5 + 1 in
  select first last (size / 2) size.

(** detail/introselect.h:203-226. *)
Definition last_it (bidi : bool) (first last size : nat) : nat :=
  if bidi then last - 1 else first + (size - 1).

(** detail/introselect.h:230-256.  [bad_allowed], which may be negative in the code, is truncated at 0: only whether
    it is positive matters. *)
Definition pick_pivot (select : nat -> nat -> nat -> nat -> M A nat) (bidi : bool)
    (first last size bad_allowed : nat) : M A (nat * nat) :=
  if 0 <? bad_allowed then
    let it1 := first + size / 8 in
    let it2 := it1 + size / 8 in
    let it3 := it2 + size / 8 in
    let middle := it3 + (size / 2 - 3 * (size / 8)) in
    let it4 := middle + size / 8 in
    let it5 := it4 + size / 8 in
    let it6 := it5 + size / 8 in
    let last_1 := last_it bidi it6 last (size - size / 2 - 3 * (size / 8)) in
    iter_sort3 comp proj first it1 it2 ;;
    iter_sort3 comp proj it3 middle it4 ;;
    iter_sort3 comp proj it5 it6 last_1 ;;
    let* median_it := iter_sort3 comp proj it1 middle it6 in
    ret (median_it, last_1)
  else
    let last_1 := last_it bidi first last size in
    let* median_it := median_of_medians select first last size in
    ret (median_it, last_1).

(** The two partitions which quicksort (detail/quicksort.h:76-96) and introselect (detail/introselect.h:277-296) share:
    the pivot goes to the end, then to its final place, then the elements equivalent to it are gathered.  The
    references [pivot1] and [pivot2] are read at every comparison. *)
Definition partition_pivot (bidi : bool) (first last median_it last_1 : nat) : M A (nat * nat) :=
  swap median_it last_1 ;;
  let* middle1 := partition bidi (fun i => less_at comp proj i last_1) first last_1 in
  swap middle1 last_1 ;;
  let* middle2 := partition bidi (fun i => let* c := less_at comp proj middle1 i in ret (negb c)) (S middle1) last in
  ret (middle1, middle2).

(** detail/introselect.h:271-318, the loop; every iteration has a smaller size. *)
Fixpoint introselect_loop (bidi : bool) (fuel : nat) (first last nth_pos size bad_allowed : nat) : M A nat :=
  match fuel with
  | 0 => nofuel
  | S fuel =>
    let select first last nth_pos size := introselect_loop bidi fuel first last nth_pos size (log2 size) in
    if 32 <? size then
      let* (median_it, last_1) := pick_pivot select bidi first last size bad_allowed in
      let* (middle1, middle2) := partition_pivot bidi first last median_it last_1 in
      let size_left := middle1 - first in
      let size_middle := middle2 - middle1 in
      let size_right := size - size_left - size_middle in
      if nth_pos <? size_left then
        introselect_loop bidi fuel first middle1 nth_pos size_left (bad_allowed - 1)
      else if size_left + size_middle <? nth_pos then
        introselect_loop bidi fuel middle2 last (nth_pos - (size_left + size_middle)) size_right (bad_allowed - 1)
      else ret (middle1 + (nth_pos - size_left))
    else
      small_sort bidi first last ;;
      ret (first + nth_pos)
  end.

(** detail/introselect.h:261-320. *)
Definition introselect (bidi : bool) (first last nth_pos size : nat) : M A nat :=
  introselect_loop bidi (S size) first last nth_pos size (log2 size).

(** detail/quicksort.h:29-57. *)
Definition quicksort_fallback (bidi : bool) (first last size : nat) : M A bool :=
  if bidi then
    if size <? 42 then insertion_sort comp proj first last ;; ret true else ret false
  else
    if size <? 10 then bubble_sort comp proj first size ;; ret true else ret false.

(** detail/quicksort.h:59-115. *)
Fixpoint quicksort_loop (bidi : bool) (fuel first last size bad_allowed : nat) : M A unit :=
  match fuel with
  | 0 => nofuel
  | S fuel =>
    let* sorted := quicksort_fallback bidi first last size in
    if (sorted : bool) then ret tt else
    let* (median_it, last_1) := pick_pivot (introselect bidi) bidi first last size bad_allowed in
    let* (middle1, middle2) := partition_pivot bidi first last median_it last_1 in
    let size_left := middle1 - first in
    let size_middle := middle2 - middle1 in
    let size_right := size - size_left - size_middle in
    let '(first, middle1, middle2, last, size_left, size_right) :=
      (if size_right <? size_left then (middle2, last, first, middle1, size_right, size_left)
       else (first, middle1, middle2, last, size_left, size_right)) in
    let bad_allowed := bad_allowed - 1 in
    quicksort_loop bidi fuel first middle1 size_left bad_allowed ;;
    quicksort_loop bidi fuel middle2 last size_right bad_allowed
  end.

(** detail/quicksort.h:117-126. *)
Definition quicksort (bidi : bool) (first last size : nat) : M A unit :=
  quicksort_loop bidi (S size) first last size (2 * log2 size).

(** sorters/quick_sorter.h:28-90. *)
Definition quick_sorter (bidi : bool) : range_prog A := fun first last => quicksort bidi first last (last - first).
End Model.
