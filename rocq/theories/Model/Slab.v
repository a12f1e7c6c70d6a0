(** slabsort (detail/slabsort.h). *)
From Coq Require Import List Arith Bool.
From Verif Require Import Lang.Mem Model.Rotate Model.Insertion Model.Indirect Model.Buffer Model.Select Model.FixedList Model.Mel Model.StablePartition.
Import ListNotations.

(** The contents of a node is a union of a value and of an iterator (detail/slabsort.h:38-61).  The same table of nodes is seen as a table of
    nodes that hold iterators and as a table of nodes that hold values: going from one to the other, no node holds anything. *)
Definition retype {V W} (p : node_pool V) : node_pool W :=
  {| nodes := map (fun n => {| prev := prev n; next := next n; value := Raw |}) (nodes p);
     first_free := first_free p; capacity := capacity p |}.

Section Model.
Context {A T : Type} (comp : T -> T -> bool) (proj : A -> T) (cat : category) (triv : bool).

(** Run a selection in a local vector of iterators (with the elements they point to): the iterator at the position it returns. *)
Definition select_in (c : M (nat * A) nat) (v : list (nat * A)) : M A nat := fun m =>
  match c (map Val v) with
  | Ok i v' => match nth_error v' i with Some (Val e) => Ok (fst e) m | _ => UB end
  | UB => UB
  | NoFuel => NoFuel
  end.

(** detail/slabsort.h:63-91.  The vector of iterators is an immovable_vector of capacity [cap] (detail/immovable_vector.h:125-131). *)
Definition slabsort_get_median (cap first size : nat) : M A nat :=
  assert (size <=? cap) ;;
  let* its := iterators first (first + size) in
  select_in (nth_element comp (fun it => proj (snd it)) RandomAccess 0 size (size / 2) size) its.

(** detail/slabsort.h:93-124.  The pivot is a reference to the last element, which does not change during the partition. *)
Definition slabsort_partition (o : oracle) (cap first last size : nat) : M A nat :=
  let* median_it := slabsort_get_median cap first size in
  let last_1 := last - 1 in
  swap median_it last_1 ;;
  let* pivot := get last_1 in
  let* middle := stable_partition cat triv (fun elem => comp (proj elem) (proj pivot)) o first last_1 (size - 1) in
  swap middle last_1 ;;
  ret middle.

(** detail/slabsort.h:199-208: the iterators of the nodes are replaced by the elements. *)
Definition reify (p : node_pool nat) (lists : list nat) : M A (node_pool A) :=
  loop (S (length lists)) (fun '(i, q) =>
    if i =? length lists then ret (inr q) else
    let* l := rd lists i in
    let* it := list_begin p l in
    let* q := loop (S (length (nodes p))) (fun '(it, q) =>
      if it =? l then ret (inr q) else
      let* value_it := list_deref p it in
      let* x := take value_it in
      let* ns := set_value (nodes q) it (Val x) in
      let* it := list_next p it in
      ret (inl (it, with_nodes q ns))) (it, q) in
    ret (inl (S i, q))) (0, retype p).

(** detail/slabsort.h:126-218.  The sentinels of the lists that are destroyed stay in the table. *)
Definition try_melsort (first last size p_max : nat) (p : node_pool nat) : M A (bool * node_pool nat) :=
  if size <? 32 then insertion_sort comp proj first last ;; ret (true, p) else
  let '(l, p) := new_list p in
  let* p := push_back p l first in
  let* (gave_up, lists, p) := loop (S (last - first)) (fun '(it, lists, p) =>
    if it =? last then ret (inr (false, lists, p)) else
    let* (lists, p) := add_to_lists comp proj get ret p lists it in
    if p_max <=? length lists then ret (inr (true, lists, p))
    else ret (inl (S it, lists, p))) (S first, [l], p) in
  if gave_up : bool then
    let* p := destroy_lists p lists in ret (false, p)
  else
    let* q := reify p lists in
    let* (lists, q) := merge_encroaching_lists comp proj q lists first false in
    let* q := destroy_lists q lists in
    ret (true, retype q).

(** detail/slabsort.h:220-262. *)
Fixpoint slabsort_impl (fuel : nat) (o : oracle) (cap first last size original_p current_p : nat) (p : node_pool nat) : M A (node_pool nat) :=
  match fuel with
  | 0 => nofuel
  | S fuel =>
    if size <? 2 then ret p else
    let* middle := slabsort_partition (sub 0 o) cap first last size in
    let size_left := middle - first in
    let size_right := size - size_left in
    assert (size_left <=? size / 2) ;;
    if 2 <? current_p then
      let* p := slabsort_impl fuel (sub 1 o) cap first middle size_left original_p (current_p / 2) p in
      slabsort_impl fuel (sub 2 o) cap middle last size_right original_p (current_p / 2) p
    else
      let* (done, p) := try_melsort first middle size_left original_p p in
      let* p := if done : bool then ret p else
        slabsort_impl fuel (sub 1 o) cap first middle size_left (original_p * original_p) (original_p * original_p) p in
      let* (done, p) := try_melsort middle last size_right original_p p in
      if done : bool then ret p else
        slabsort_impl fuel (sub 2 o) cap middle last size_right (original_p * original_p) (original_p * original_p) p
  end.

(** detail/slabsort.h:264-296. *)
Definition slabsort (o : oracle) (first last size : nat) : M A unit :=
  if size <? 2 then ret tt else
  let* p := new_pool size in
  let* (done, p) := try_melsort first last size (2 * Nat.log2 size) p in
  if done : bool then ret tt else
  let* _ := slabsort_impl (8 * S (Nat.log2 size)) o size first last size 2 2 p in
  ret tt.

(** sorters/slab_sorter.h:32-84. *)
Definition slab_sorter (o : oracle) : range_prog A := fun first last => slabsort o first last (last - first).
End Model.
