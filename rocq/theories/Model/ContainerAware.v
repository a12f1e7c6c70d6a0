(** The container-aware sorts of std::list and std::forward_list.  The collections, their nodes and their iterators are those of Lang/Lists.v. *)
From Coq Require Import List Arith Bool.
From Verif Require Import Lang.Lists.
Import ListNotations.

(** A program that sorts a collection. *)
Definition list_prog (A : Type) := list (node A) -> out (list (node A)).

Section Model.
Context {A T : Type} (comp : T -> T -> bool) (proj : A -> T).
Implicit Types (l : list (node A)).

(** comp(proj( *i ), proj( *j )). *)
Definition comp_at l (i j : pos) : out bool :=
  let! x := deref l i in let! y := deref l j in Done (comp (proj x) (proj y)).

(** detail/lower_bound.h:23-40 (lower_bound_n), on iterators of a list; [cmp] is the comparison. *)
Definition list_lower_bound_n (cmp : T -> T -> bool) l (first : pos) (size : nat) (value : T) : out pos :=
  iter (S size) (fun '(first, size) =>
    if 0 <? size then
      let! it := advance l (size / 2) first in
      let! x := deref l it in
      if cmp (proj x) value then let! first := next l it in Done (inl (first, size - (size / 2 + 1)))
      else Done (inl (first, size / 2))
    else Done (inr first)) (first, size).

(** detail/upper_bound.h:22-35. *)
Definition list_upper_bound_n l (first : pos) (size : nat) (value : T) : out pos :=
  list_lower_bound_n (fun x y => negb (comp y x)) l first size value.

(** detail/container_aware/insertion_sort.h:29-57. *)
Definition list_insertion_sort : list_prog A := fun l =>
  let it := begin_ l in
  if pos_eqb it End then Done l else
  let! it := next l it in
  iter (S (length l)) (fun '(l, it, size) =>
    if pos_eqb it End then Done (inr l) else
    let! value := deref l it in
    let! insertion_point := list_upper_bound_n l (begin_ l) size (proj value) in
    if pos_eqb insertion_point it then
      let! it := next l it in Done (inl (l, it, S size))
    else
      let! next_ := next l it in
      let! l := splice_within l insertion_point it in
      Done (inl (l, next_, S size))) (l, it, 1).

(** detail/container_aware/insertion_sort.h:76-86: the binary search. *)
Definition flist_insertion_point l (size : nat) (value : T) : out pos :=
  iter (S size) (fun '(insertion_point, search_size) =>
    if 0 <? search_size then
      let! search_it := advance l (search_size / 2) insertion_point in
      let! it := next l search_it in
      let! x := deref l it in
      if negb (comp value (proj x)) then Done (inl (it, search_size - (search_size / 2 + 1)))
      else Done (inl (insertion_point, search_size / 2))
    else Done (inr insertion_point)) (Before, size).

(** detail/container_aware/insertion_sort.h:59-98. *)
Definition flist_insertion_sort : list_prog A := fun l =>
  let! it := next l Before in
  if pos_eqb it End then Done l else
  iter (S (length l)) (fun '(l, it, size) =>
    let! after := next l it in
    if pos_eqb after End then Done (inr l) else
    let! value := deref l after in
    let! insertion_point := flist_insertion_point l size (proj value) in
    if pos_eqb insertion_point it then Done (inl (l, after, S size))
    else
      let! l := splice_after_within l insertion_point it in
      Done (inl (l, it, S size))) (l, it, 1).

(** detail/min_element.h:22-52. *)
Definition list_min_element l (first last : pos) : out pos :=
  if pos_eqb first last then Done last else
  iter (S (length l)) (fun '(first, min) =>
    let! first := next l first in
    if pos_eqb first last then Done (inr min) else
    let! c := comp_at l first min in
    Done (inl (first, if c then first else min))) (first, first).

(** detail/container_aware/selection_sort.h:27-47. *)
Definition list_selection_sort : list_prog A := fun l =>
  iter (S (2 * length l)) (fun '(l, it) =>
    if pos_eqb it End then Done (inr l) else
    let! min_it := list_min_element l it End in
    if pos_eqb min_it it then let! it := next l it in Done (inl (l, it))
    else let! l := splice_within l it min_it in Done (inl (l, it))) (l, begin_ l).

(** detail/container_aware/selection_sort.h:61-71: the position before the smallest element. *)
Definition flist_before_min l (first : pos) : out pos :=
  iter (S (length l)) (fun '(min_it, it) =>
    let! after := next l it in
    if pos_eqb after End then Done (inr min_it) else
    let! min := next l min_it in
    let! c := comp_at l after min in
    Done (inl (if c then it else min_it, after))) (first, first).

(** detail/container_aware/selection_sort.h:49-76. *)
Definition flist_selection_sort : list_prog A := fun l =>
  iter (S (length l)) (fun '(l, first) =>
    let! after := next l first in
    if pos_eqb after End then Done (inr l) else
    let! min_it := flist_before_min l first in
    let! l := splice_after_within l first min_it in
    let! first := next l first in
    Done (inl (l, first))) (l, Before).

(** comparators/projection_compare.h. *)
Definition less (x y : A) : bool := comp (proj x) (proj y).

(** detail/container_aware/merge_sort.h:28-47. *)
Fixpoint list_merge_sort_rec (fuel : nat) l : out (list (node A)) :=
  match fuel with
  | 0 => Exhausted
  | S fuel =>
      if length l <? 2 then Done l else
      let first := begin_ l in
      let! middle := advance l (length l / 2) first in
      let! (lft, l) := splice_range [] (begin_ (@nil (node A))) l first middle in
      let! lft := list_merge_sort_rec fuel lft in
      let! l := list_merge_sort_rec fuel l in
      merge_with less l lft
  end.
Definition list_merge_sort : list_prog A := fun l => list_merge_sort_rec (S (length l)) l.

(** detail/container_aware/merge_sort.h:49-68. *)
Fixpoint flist_merge_sort_rec (fuel : nat) l (size : nat) : out (list (node A)) :=
  match fuel with
  | 0 => Exhausted
  | S fuel =>
      if size <? 2 then Done l else
      let first := Before in
      let! middle := advance l (size / 2 + 1) first in
      let! (lft, l) := splice_after_range [] Before l first middle in
      let! lft := flist_merge_sort_rec fuel lft (size / 2) in
      let! l := flist_merge_sort_rec fuel l (size - size / 2) in
      merge_with less l lft
  end.
(** detail/container_aware/merge_sort.h:128-172: the size is that of the collection. *)
Definition flist_merge_sort : list_prog A := fun l => flist_merge_sort_rec (S (length l)) l (length l).

(** Access to a vector. *)
Definition vector_at {X} (v : list X) (i : nat) : out X := match nth_error v i with Some x => Done x | None => Undefined end.
Definition vector_set {X} (v : list X) (i : nat) (x : X) : list X := firstn i v ++ x :: skipn (S i) v.

(** detail/lower_bound.h:44-54, on a vector of lists; [key] gives the element compared. *)
Definition vector_lower_bound {X} (cmp : T -> T -> bool) (key : X -> out A) (v : list X) (last : nat) (value : T) : out nat :=
  iter (S last) (fun '(first, size) =>
    if 0 <? size then
      let it := first + size / 2 in
      let! c := vector_at v it in
      let! x := key c in
      if cmp (proj x) value then Done (inl (S it, size - (size / 2 + 1)))
      else Done (inl (first, size / 2))
    else Done (inr first)) (0, last).

(** detail/container_aware/mel_sort.h:51-73: the first element of the collection goes to one of the encroaching lists. *)
Definition mel_add (lists : list (list (node A))) l : out (list (list (node A)) * list (node A)) :=
  let! value := front l in
  let value := proj value in
  let! last_list := vector_at lists (length lists - 1) in
  let! b := back last_list in
  if negb (comp value (proj b)) then
    let! i := vector_lower_bound (fun x y => comp y x) back lists (length lists - 1) value in
    let! target := vector_at lists i in
    let! (target, l) := splice_from target End l (begin_ l) in
    Done (vector_set lists i target, l)
  else
    let! f := front last_list in
    if negb (comp (proj f) value) then
      let! i := vector_lower_bound comp front lists (length lists - 1) value in
      let! target := vector_at lists i in
      let! (target, l) := splice_from target (begin_ target) l (begin_ l) in
      Done (vector_set lists i target, l)
    else
      let! (target, l) := splice_from [] End l (begin_ l) in
      Done (lists ++ [target], l).

(** detail/container_aware/mel_sort.h:87-93: the lists from [half] on are merged with the first ones. *)
Definition mel_merge_halves (lists : list (list (node A))) (half : nat) : out (list (list (node A))) :=
  iter (S (length lists)) (fun '(lists, i) =>
    if half + i =? length lists then Done (inr lists) else
    let! first := vector_at lists i in
    let! other := vector_at lists (half + i) in
    let! first := merge_with less first other in
    Done (inl (vector_set (vector_set lists (half + i) []) i first, S i))) (lists, 0).

(** detail/container_aware/mel_sort.h:79-96. *)
Definition mel_merge (lists : list (list (node A))) : out (list (list (node A))) :=
  iter (S (length lists)) (fun lists =>
    if 1 <? length lists then
      let! lists :=
        (if negb (length lists mod 2 =? 0) then
           let! last := vector_at lists (length lists - 1) in
           let! last_1 := vector_at lists (length lists - 2) in
           let! merged := merge_with less last_1 last in
           Done (removelast (vector_set lists (length lists - 2) merged))
         else Done lists) in
      let! lists := mel_merge_halves lists (length lists / 2) in
      Done (inl (firstn (length lists / 2) lists))
    else Done (inr lists)) lists.

(** detail/container_aware/mel_sort.h:32-100. *)
Definition list_mel_sort : list_prog A := fun l =>
  if length l <? 2 then Done l else
  let! (first, l) := splice_from [] End l (begin_ l) in
  let! lists := iter (S (length l)) (fun '(lists, l) =>
    match l with
    | [] => Done (inr lists)
    | _ => let! (lists, l) := mel_add lists l in Done (inl (lists, l))
    end) ([first], l) in
  let! lists := mel_merge lists in
  vector_at lists 0.

(** detail/container_aware/mel_sort.h:114-125: a list and its last element. *)
Definition flist := (list (node A) * pos)%type.

(** detail/container_aware/mel_sort.h:138-165. *)
Definition flist_mel_add (lists : list flist) l : out (list flist * list (node A)) :=
  let! value := front l in
  let value := proj value in
  let! (last_list, last_last) := vector_at lists (length lists - 1) in
  let! b := deref last_list last_last in
  if negb (comp value (proj b)) then
    let! i := vector_lower_bound (fun x y => comp y x) (fun t => deref (fst t) (snd t)) lists (length lists - 1) value in
    let! (target, last) := vector_at lists i in
    let! (target, l) := splice_after_from target last l Before in
    let! last := next target last in
    Done (vector_set lists i (target, last), l)
  else
    let! f := front last_list in
    if negb (comp (proj f) value) then
      let! i := vector_lower_bound comp (fun t => front (fst t)) lists (length lists - 1) value in
      let! (target, last) := vector_at lists i in
      let! (target, l) := splice_after_from target Before l Before in
      Done (vector_set lists i (target, last), l)
    else
      let! (target, l) := splice_after_from [] Before l Before in
      Done (lists ++ [(target, begin_ target)], l).

(** detail/container_aware/mel_sort.h:102-192.  The merges of lines 171-188 are those of lines 79-96, on the lists without their last elements. *)
Definition flist_mel_sort : list_prog A := fun l =>
  let! second := (if pos_eqb (begin_ l) End then Done End else next l (begin_ l)) in
  if pos_eqb second End then Done l else
  let! (first, l) := splice_after_from [] Before l Before in
  let! lists := iter (S (length l)) (fun '(lists, l) =>
    match l with
    | [] => Done (inr lists)
    | _ => let! (lists, l) := flist_mel_add lists l in Done (inl (lists, l))
    end) ([(first, begin_ first)], l) in
  let! lists := mel_merge (map fst lists) in
  vector_at lists 0.
End Model.
