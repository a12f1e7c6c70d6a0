(** Merge-insertion sort (detail/merge_insertion_sort.h).

    A group iterator (lines 33-220) is the address [base] of the first element of its group; all group iterators of one call have the
    same [gs] (size of a group), which is a parameter.  The value of a group is its last element: [*it] is [*(base + gs - 1)]. *)
From Coq Require Import List Arith Bool.
From Verif Require Import Lang.Mem Model.Basic Model.Rotate Model.Indirect Model.Search Model.Adapters Model.Select Model.FixedList.
Import ListNotations.

Section Model.
Context {A T : Type} (comp : T -> T -> bool) (proj : A -> T).
Implicit Types p : node_pool nat.

(** detail/merge_insertion_sort.h:79-84, 210-214 and detail/swap_if.h: iter_swap_if on two group iterators. *)
Definition group_swap_if (gs lhs rhs : nat) : M A unit :=
  let* c := less_at comp proj (rhs + (gs - 1)) (lhs + (gs - 1)) in
  if c then let* _ := swap_ranges_inner lhs (lhs + gs) rhs in ret tt else ret tt.

(** detail/upper_bound.h:36-48 and detail/lower_bound.h:21-40, on the iterators of the chain: the comparison is
    [not_fn(flip(compare))] and the projection [indirect{} | projection]. *)
Definition chain_upper_bound (gs : nat) p (first last : nat) (value : T) : M A nat :=
  let* size := list_distance p first last in
  loop (S size) (fun '(first, size) =>
    if 0 <? size then
      let* it := list_advance p first (size / 2) in
      let* base := list_deref p it in
      let* x := get (base + (gs - 1)) in
      if not_fn_flip comp (proj x) value then
        let* it := list_next p it in ret (inl (it, size - (size / 2 + 1)))
      else ret (inl (first, size / 2))
    else ret (inr first)) (first, size).

(** detail/merge_insertion_sort.h:346-350 and 367-371: inserts the group [it] in the chain of sentinel [s], before [last]. *)
Definition insert_in_chain (gs : nat) p (s last it : nat) : M A (node_pool nat) :=
  let* first := list_begin p s in
  let* x := get (it + (gs - 1)) in
  let* insertion_point := chain_upper_bound gs p first last (proj x) in
  let* (_, p) := insert_node p insertion_point it in
  ret p.

(** detail/merge_insertion_sort.h:339-354: the pend elements [current_pend, current_pend + dist) from the last to the first. *)
Definition insert_batch (gs : nat) p (s : nat) (pend : list nat) (current_it current_pend dist : nat) : M A (node_pool nat) :=
  loop (S dist) (fun '(it, pe, p) =>
    let pe := pe - 1 in
    let* last := rd pend pe in
    let* p := insert_in_chain gs p s last it in
    if pe =? current_pend then ret (inr p) else ret (inl (it - 2 * gs, pe, p)))
    (current_it + dist * 2 * gs, current_pend + dist, p).

(** detail/merge_insertion_sort.h:333-335: the next values of [pow2], [jn] and [dist]. *)
Definition next_batch (b : nat * nat * nat) : nat * nat * nat :=
  let '(pow2, jn, _) := b in
  let pow2 := pow2 * 2 in
  let jn := pow2 - jn in
  (pow2, jn, 2 * jn).

(** detail/merge_insertion_sort.h:333: their initial values. *)
Definition first_batch : nat * nat * nat := (1, 0, 2).

(** detail/merge_insertion_sort.h:308-373. *)
Definition insert_pend (gs : nat) p (s : nat) (pend : list nat) (first : nat) : M A (node_pool nat) :=
  let* (current_it, current_pend, p) := loop (S (length pend)) (fun '(b, current_it, current_pend, p) =>
    let '(_, _, dist) := b in
    if dist <=? length pend - current_pend then
      let* p := insert_batch gs p s pend current_it current_pend dist in
      ret (inl (next_batch b, current_it + dist * 2 * gs, current_pend + dist, p))
    else ret (inr (current_it, current_pend, p))) (first_batch, first, 0, p) in
  loop (S (length pend)) (fun '(current_it, current_pend, p) =>
    if current_pend =? length pend then ret (inr p) else
    let current_it := current_it + 2 * gs in
    let* last := rd pend current_pend in
    let* p := insert_in_chain gs p s last current_it in
    ret (inl (current_it, S current_pend, p))) (current_it, current_pend, p).

(** detail/immovable_vector.h:124-131, on a vector of [cap] elements at most. *)
Definition emplace_back (v : list nat) (cap x : nat) : M A (list nat) :=
  assert (length v <? cap) ;; ret (v ++ [x]).

(** detail/merge_insertion_sort.h:283-306: the main chain and the bounds of the pend elements. *)
Definition make_chain (gs : nat) p (size first end_ : nat) (has_stray : bool) : M A (nat * list nat * node_pool nat) :=
  let '(s, p) := new_list p in
  let* (_, p) := insert_node p s first in
  let* (_, p) := insert_node p s (first + gs) in
  let cap := (size + 1) / 2 - 1 in
  let* (pend, p) := loop (S size) (fun '(it, pend, p) =>
    if it =? end_ then ret (inr (pend, p)) else
    let* (tmp, p) := insert_node p s (it + gs) in
    let* pend := emplace_back pend cap tmp in
    ret (inl (it + 2 * gs, pend, p))) (first + 2 * gs, [], p) in
  let* pend := if has_stray then emplace_back pend cap s else ret pend in
  ret (s, pend, p).

(** detail/merge_insertion_sort.h:375-390 (cache is destroyed at the end of the function, line 394). *)
Definition move_chain (gs : nat) p (s size first : nat) : M A unit :=
  let full_size := size * gs in
  let* cache := alloc full_size in
  let* it := list_begin p s in
  let* cache_end := loop (S (length (nodes p))) (fun '(it, cache_end) =>
    if it =? s then ret (inr cache_end) else
    let* begin := list_deref p it in
    let* cache_end := insert_back begin (begin + gs) cache_end in
    let* it := list_next p it in
    ret (inl (it, cache_end))) (it, cache) in
  let* _ := move_range cache cache_end first in
  destroy_range cache cache_end ;;
  dealloc cache full_size.

(** detail/merge_insertion_sort.h:243-394.  On return the chain is destroyed, then the pool is reset. *)
Fixpoint merge_insertion_sort_impl (fuel : nat) (gs first last : nat) p : M A (node_pool nat) :=
  match fuel with
  | 0 => nofuel
  | S fuel =>
    let size := (last - first) / gs in
    if size <? 2 then ret p else
    let has_stray := negb (size mod 2 =? 0) in
    let end_ := if has_stray then last - gs else last in
    loop (S size) (fun it =>
      if it =? end_ then ret (inr tt) else
      group_swap_if gs it (it + gs) ;; ret (inl (it + 2 * gs))) first ;;
    let* p := merge_insertion_sort_impl fuel (2 * gs) first end_ p in
    let* (s, pend, p) := make_chain gs p size first end_ has_stray in
    let* p := insert_pend gs p s pend first in
    move_chain gs p s size first ;;
    let* p := delete_list p s in
    if 1 <? gs then reset_nodes p size else ret p
  end.

(** detail/merge_insertion_sort.h:396-420. *)
Definition merge_insertion_sort (first last : nat) : M A unit :=
  let size := last - first in
  if size <? 2 then ret tt else
  let* p := new_pool size in
  let* _ := merge_insertion_sort_impl (S size) 1 first last p in
  ret tt.

(** sorters/merge_insertion_sorter.h:42-58. *)
Definition merge_insertion_sorter : range_prog A := merge_insertion_sort.
End Model.
