(** Binary heapsort and d-ary heapsort. *)
From Coq Require Import List Arith Bool.
From Verif Require Import Lang.Mem Model.Basic.
Import ListNotations.

(** comparators/flip.h: [flip(comp)(x, y) = comp(y, x)]. *)
Definition flip_comp {T} (comp : T -> T -> bool) : T -> T -> bool := fun x y => comp y x.

Section Model.
Context {A T : Type} (comp : T -> T -> bool) (proj : A -> T).

(** detail/heapsort.h:50-57 and 76-83: the greater child of [child]; result is its index. *)
Definition greater_child (first len child : nat) : M A nat :=
  let child := 2 * child + 1 in
  if child + 1 <? len then
    let* c := less_at comp proj (first + child) (first + child + 1) in
    ret (if c then child + 1 else child)
  else ret child.

(** detail/heapsort.h:31-88. *)
Definition sift_down (first len start : nat) : M A unit :=
  let child := start - first in
  if (len <? 2) || ((len - 2) / 2 <? child) then ret tt else
  let* child := greater_child first len child in
  let* c := less_at comp proj (first + child) start in
  if c then ret tt else
  let* top := take start in
  let* start := loop (S len) (fun '(start, child) =>
      move_to (first + child) start ;;
      let start := first + child in
      if (len - 2) / 2 <? child then ret (inr start) else
      let* child := greater_child first len child in
      let* x := get (first + child) in
      if negb (comp (proj x) (proj top)) then ret (inl (start, child)) else ret (inr start))
    (start, child) in
  put start top.

(** detail/heapsort.h:90-125. CPPSORT_ASSERT(len >= 2) is a precondition. *)
Definition floyd_sift_down (first len : nat) : M A nat :=
  if len <? 2 then ub else
  loop (S len) (fun '(hole, child_i, child) =>
      let child_i := child_i + (child + 1) in
      let child := 2 * child + 1 in
      let* c := (if child + 1 <? len then less_at comp proj child_i (S child_i) else ret false) in
      let child_i := if c then S child_i else child_i in
      let child := if c then S child else child in
      move_to child_i hole ;;
      let hole := child_i in
      if (len - 2) / 2 <? child then ret (inr hole) else ret (inl (hole, child_i, child)))
    (first, first, 0).

(** detail/heapsort.h:127-154. *)
Definition push_heap (first last len : nat) : M A unit :=
  if 1 <? len then
    let len := (len - 2) / 2 in
    let ptr := first + len in
    let last := last - 1 in
    let* c := less_at comp proj ptr last in
    if c then
      let* t := take last in
      let* last := loop (S len) (fun '(last, ptr, len) =>
          move_to ptr last ;;
          let last := ptr in
          if len =? 0 then ret (inr last) else
          let len := (len - 1) / 2 in
          let ptr := first + len in
          let* x := get ptr in
          if comp (proj x) (proj t) then ret (inl (last, ptr, len)) else ret (inr last))
        (last, ptr, len) in
      put last t
    else ret tt
  else ret tt.

(** detail/heapsort.h:156-176. *)
Definition pop_heap (first last len : nat) : M A unit :=
  if 1 <? len then
    let* top := take first in
    let* hole := floyd_sift_down first len in
    let last := last - 1 in
    if hole =? last then put hole top
    else
      move_to last hole ;;
      let hole := S hole in
      put last top ;;
      push_heap first hole (hole - first)
  else ret tt.

(** detail/heapsort.h:178-191. The loop state is [start + 1]. *)
Definition make_heap (first last : nat) : M A unit :=
  let n := last - first in
  if 1 <? n then
    loop (S n) (fun k =>
      match k with
      | 0 => ret (inr tt)
      | S start => sift_down first n (first + start) ;; ret (inl start)
      end) (S ((n - 2) / 2))
  else ret tt.

(** detail/heapsort.h:193-201. *)
Definition sort_heap (first last : nat) : M A unit :=
  loop (S (last - first)) (fun '(last, n) =>
    if 1 <? n then
      pop_heap first last n ;; ret (inl (last - 1, n - 1))
    else ret (inr tt)) (last, last - first).

(** detail/heapsort.h:203-211. *)
Definition heapsort (first last : nat) : M A unit :=
  make_heap first last ;; sort_heap first last.

(** sorters/heap_sorter.h:40-54. *)
Definition heap_sorter : range_prog A := heapsort.

(** * d-ary heaps *)
Section Dary.
Variable D : nat.

(** detail/d_ary_heapsort.h:30-36. *)
Definition parent_it (first it : nat) : nat := first + (it - first - 1) / D.

(** detail/d_ary_heapsort.h:38-44. *)
Definition first_child_it (first it : nat) : nat := first + (it - first) * D + 1.

(** detail/d_ary_heapsort.h:46-62. *)
Definition top_child_it (first last it : nat) : M A nat :=
  let first_child := first_child_it first it in
  let max_elements := last - first_child in
  let last_child := if D <? max_elements then first_child + D else last in
  min_element (flip_comp comp) proj first_child last_child.

(** detail/d_ary_heapsort.h:64-70. *)
Definition not_leaf (first last it : nat) : bool :=
  (it - first) * (D - 1) <? last - it - 1.

(** detail/d_ary_heapsort.h:72-91. *)
Definition siftdown (first last it : nat) : M A unit :=
  loop (S (last - first)) (fun it =>
    if not_leaf first last it then
      let* max_child := top_child_it first last it in
      let* c := less_at comp proj max_child it in
      if negb c then swap max_child it ;; ret (inl max_child)
      else ret (inr tt)
    else ret (inr tt)) it.

(** detail/d_ary_heapsort.h:93-113. *)
Definition siftup (first it : nat) : M A unit :=
  loop (S (it - first)) (fun it =>
    if it =? first then ret (inr tt) else
    let parent := parent_it first it in
    let* c := less_at comp proj parent it in
    if c then swap parent it ;; ret (inl parent)
    else ret (inr tt)) it.

(** detail/d_ary_heapsort.h:115-121. *)
Definition push_d_ary_heap (first last : nat) : M A unit := siftup first (last - 1).

(** detail/d_ary_heapsort.h:123-133. *)
Definition pop_d_ary_heap (first last : nat) : M A unit :=
  let last := last - 1 in
  swap first last ;;
  if first =? last then ret tt else siftdown first last first.

(** detail/d_ary_heapsort.h:135-147. *)
Definition make_d_ary_heap (first last : nat) : M A unit :=
  if first =? last then ret tt else
  loop (S (last - first)) (fun it =>
    if it =? last then ret (inr tt) else
    push_d_ary_heap first it ;; ret (inl (S it))) (S first) ;;
  push_d_ary_heap first last.

(** detail/d_ary_heapsort.h:149-157. *)
Definition sort_d_ary_heap (first last : nat) : M A unit :=
  loop (S (last - first)) (fun it =>
    if it =? first then ret (inr tt) else
    pop_d_ary_heap first it ;; ret (inl (it - 1))) last.

(** detail/d_ary_heapsort.h:159-167. *)
Definition d_ary_heapsort (first last : nat) : M A unit :=
  make_d_ary_heap first last ;; sort_d_ary_heap first last.

(** sorters/d_ary_heap_sorter.h:41-55. *)
Definition d_ary_heap_sorter : range_prog A := d_ary_heapsort.
End Dary.
End Model.
