(** Minimum, minimum and maximum, conditional swap; selection sort, bubble sort. *)
From Coq Require Import List Arith Bool.
From Verif Require Import Lang.Mem.
Import ListNotations.

Section Model.
Context {A T : Type} (comp : T -> T -> bool) (proj : A -> T).

(** [comp(proj( *i), proj( *j))]. *)
Definition less_at (i j : nat) : M A bool :=
  let* x := get i in
  let* y := get j in
  ret (comp (proj x) (proj y)).

(** detail/swap_if.h:28-39 through iter_swap_if (generic overload). *)
Definition iter_swap_if (lhs rhs : nat) : M A unit :=
  let* c := less_at rhs lhs in
  if c then swap lhs rhs else ret tt.

(** detail/min_element.h:19-38. [CPPSORT_ASSUME(first != last)] is a precondition: [ub] if violated. *)
Definition unchecked_min_element (first last : nat) : M A nat :=
  if first =? last then ub else
  loop (S (last - first)) (fun '(first, min) =>
    let first := S first in
    if first =? last then ret (inr min) else
    let* c := less_at first min in
    ret (inl (first, if c then first else min)))
  (first, first).

(** detail/min_element.h:40-48. *)
Definition min_element (first last : nat) : M A nat :=
  if first =? last then ret last else unchecked_min_element first last.

(** detail/selection_sort.h:18-27. *)
Definition selection_sort (first last : nat) : M A unit :=
  loop (S (last - first)) (fun it =>
    if it =? last then ret (inr tt) else
    let* mn := unchecked_min_element it last in
    swap it mn ;;
    ret (inl (S it)))
  first.

(** sorters/selection_sorter.h:40-54. *)
Definition selection_sorter : range_prog A := selection_sort.

(** detail/bubble_sort.h:37-43, one pass: [size] is the value after the decrement of line 36. *)
Definition bubble_pass (first size : nat) : M A unit :=
  loop (S size) (fun '(i, current, next) =>
    if i <? size then
      iter_swap_if current next ;;
      ret (inl (S i, S current, S next))
    else ret (inr tt))
  (0, first, S first).

(** detail/bubble_sort.h:29-45. *)
Definition bubble_sort (first size : nat) : M A unit :=
  if size <? 2 then ret tt else
  loop (S size) (fun size =>
    let size := size - 1 in
    if size =? 0 then ret (inr tt) else
    bubble_pass first size ;;
    ret (inl size))
  size.

(** detail/minmax_element.h:35-75. The two CPPSORT_ASSUME are preconditions. *)
Definition unchecked_minmax_element (begin end_ : nat) : M A (nat * nat) :=
  if (begin =? end_) || (S begin =? end_) then ub else
  loop (S (end_ - begin)) (fun '(begin, mn, mx) =>
    let begin := S begin in
    if begin =? end_ then ret (inr (mn, mx)) else
    let tmp := begin in
    let begin := S begin in
    if begin =? end_ then
      let* c := less_at tmp mn in
      if c then ret (inr (tmp, mx)) else
      let* c := less_at tmp mx in
      if negb c then ret (inr (mn, tmp)) else ret (inr (mn, mx))
    else
      let* c := less_at begin tmp in
      if c then
        let* c1 := less_at begin mn in
        let mn := if c1 then begin else mn in
        let* c2 := less_at tmp mx in
        let mx := if negb c2 then tmp else mx in
        ret (inl (begin, mn, mx))
      else
        let* c1 := less_at tmp mn in
        let mn := if c1 then tmp else mn in
        let* c2 := less_at begin mx in
        let mx := if negb c2 then begin else mx in
        ret (inl (begin, mn, mx)))
  (begin, begin, begin).

(** detail/minmax_element.h:77-88. *)
Definition minmax_element (begin end_ : nat) : M A (nat * nat) :=
  if (begin =? end_) || (S begin =? end_) then ret (begin, begin)
  else unchecked_minmax_element begin end_.
End Model.
