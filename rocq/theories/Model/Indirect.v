(** Sorting iterators or indices, and moving elements along a permutation.

    An iterator stored in a vector and sorted through [utility::indirect] is modelled by the pair of its address and of
    the element it points to: the pointed-to element does not change while the iterators are being sorted, because
    only the iterators are moved.  The vector of iterators is a memory of its own, distinct from the collection.

    The programs that move elements also return the number of element moves they made (initialisations and
    assignments from an [iter_move] or a [std::move]); the counter is a ghost variable of the model. *)
From Coq Require Import List Arith Bool.
From Verif Require Import Lang.Mem.
Import ListNotations.

Section Aux.
Context {A : Type}.

(** [v[i]] for a vector local to the function; out of bounds is [UB]. *)
Definition rd {X} (v : list X) (i : nat) : M A X :=
  match nth_error v i with Some x => ret x | None => ub end.
Definition wr {X} (v : list X) (i : nat) (x : X) : M A (list X) :=
  if i <? length v then ret (upd i x v) else ub.

(** The objects of a memory in which every cell holds a value. *)
Fixpoint values {E} (m : mem E) : option (list E) :=
  match m with
  | [] => Some []
  | Val e :: m' => option_map (cons e) (values m')
  | _ => None
  end.

(** Call a sorter on a local vector; the result is the vector afterwards. *)
Definition sort_vector {E} (sorter : range_prog E) (v : list E) : M A (list E) := fun m =>
  match sorter 0 (length v) (map Val v) with
  | Ok _ v' => match values v' with Some v'' => Ok v'' m | None => UB end
  | UB => UB
  | NoFuel => NoFuel
  end.

(** adapters/indirect_adapter.h:76-79, utility/sorted_iterators.h:43-47: a vector of all the iterators of the range,
    each with the element it points to. *)
Definition iterators (first last : nat) : M A (list (nat * A)) :=
  loop (S (last - first)) (fun '(it, v) =>
    if it =? last then ret (inr v) else
    let* x := get it in
    ret (inl (S it, v ++ [(it, x)]))) (first, []).
End Aux.

Section Indirect.
Context {A T : Type}.

(** utility/sorted_iterators.h:37-55.  [inner comp proj] is the adapted sorter. *)
Definition sorted_iterators (inner : (T -> T -> bool) -> (nat * A -> T) -> range_prog (nat * A))
    (comp : T -> T -> bool) (proj : A -> T) (first last : nat) : M A (list nat) :=
  let* its := iterators first last in
  let* its := sort_vector (inner comp (fun it => proj (snd it))) its in
  ret (map fst its).

(** utility/sorted_indices.h:51-78.  Lines 67-68: the indices 0, 1, ..., each with the element [first[index]]
    that the projection of lines 72-74 reads.  *)
Definition sorted_indices (inner : (T -> T -> bool) -> (nat * A -> T) -> range_prog (nat * A))
    (comp : T -> T -> bool) (proj : A -> T) (first last : nat) : M A (list nat) :=
  let size := last - first in
  let* indices := loop (S size) (fun '(i, v) =>
    if i =? size then ret (inr v) else
    let* x := get (first + i) in
    ret (inl (S i, v ++ [(i, x)]))) (0, []) in
  let* indices := sort_vector (inner comp (fun it => proj (snd it))) indices in
  ret (map fst indices).

(** utility/apply_permutation.h:21-46.  The collection of indices is threaded as a list: the result is
    its final content.  Line 28, an assertion, is not modelled. *)
Definition apply_permutation (first last : nat) (indices : list nat) : M A (list nat) :=
  let size := length indices in
  loop (S size) (fun '(idx, indices) =>
    if negb (idx <? size) then ret (inr indices) else
    let* i := rd indices idx in
    if idx =? i then ret (inl (S idx, indices)) else
    let* tmp := take (first + idx) in
    let* (current_idx, indices) := loop (S size) (fun '(current_idx, indices) =>
        let* next_idx := rd indices current_idx in
        move_to (first + next_idx) (first + current_idx) ;;
        let* indices := wr indices current_idx current_idx in
        let current_idx := next_idx in
        let* i := rd indices current_idx in
        if negb (idx =? i) then ret (inl (current_idx, indices))
        else ret (inr (current_idx, indices))) (idx, indices) in
    let* indices := wr indices current_idx current_idx in
    put (first + current_idx) tmp ;;
    ret (inl (S idx, indices))) (0, indices).

(** adapters/indirect_adapter.h:92-125: put at every position the element its iterator points to. *)
Definition move_along (iterators : list nat) (first last : nat) : M A nat :=
  let* (_, moves) := loop (S (last - first)) (fun '(start, sorted, moves) =>
    if start =? last then ret (inr (sorted, moves)) else
    let current := start in
    let next_pos := current - first in
    let* next := rd iterators next_pos in
    let* sorted := wr sorted next_pos true in
    let* (sorted, moves) :=
      if negb (next =? current) then
        let* tmp := take current in
        let* (current, sorted, moves) := loop (S (last - first)) (fun '(current, next, sorted, moves) =>
          if next =? start then ret (inr (current, sorted, moves)) else
          move_to next current ;;
          let current := next in
          let next_pos := next - first in
          let* next := rd iterators next_pos in
          let* sorted := wr sorted next_pos true in
          ret (inl (current, next, sorted, S moves))) (current, next, sorted, S moves) in
        put current tmp ;;
        ret (sorted, S moves)
      else ret (sorted, moves) in
    let* start := loop (S (last - first)) (fun start =>
      let start := S start in
      if start =? last then ret (inr start) else
      let* b := rd sorted (start - first) in
      if b then ret (inl start) else ret (inr start)) start in
    ret (inl (start, sorted, moves))) (first, repeat false (last - first), 0) in
  ret moves.

(** adapters/indirect_adapter.h:51-139, for random-access iterators.  The elements are moved after the sorter has
    returned, whether by lines 92-125 as such or by the scope guard of lines 90 and 127, which line 130 deactivates
    when there is nothing to do. *)
Definition sort_indirectly (inner : (T -> T -> bool) -> (nat * A -> T) -> range_prog (nat * A))
    (comp : T -> T -> bool) (proj : A -> T) (first last : nat) : M A nat :=
  let* its := iterators first last in
  let* its := sort_vector (inner comp (fun it => proj (snd it))) its in
  if last - first <? 2 then ret 0 else
  move_along (map fst its) first last.

(** detail/indiesort.h:43-55: [it_and_index]; [original_location] is a pair of an address and of the
    element it points to. *)
Definition it_and_index := (nat * A * nat)%type.

(** detail/indiesort.h:101-119.  [storage] is the list of the pairs (location, index). *)
Definition indie_move (storage : list (nat * nat)) : M A nat :=
  let size := length storage in
  let* (_, moves) := loop (S size) (fun '(index, storage, moves) =>
    if index =? size then ret (inr (storage, moves)) else
    let* (location, original) := rd storage index in
    if original =? index then ret (inl (S index, storage, moves)) else
    let* end_value := take location in
    let* (destination, storage, moves) := loop (S size) (fun '(destination, source, storage, moves) =>
      let* (src, _) := rd storage source in
      let* (dst, _) := rd storage destination in
      move_to src dst ;;
      let destination := source in
      let* (location, source) := rd storage destination in
      let* storage := wr storage destination (location, destination) in
      if negb (source =? index) then ret (inl (destination, source, storage, S moves))
      else ret (inr (destination, storage, S moves))) (index, original, storage, S moves) in
    let* (dst, _) := rd storage destination in
    put dst end_value ;;
    ret (inl (S index, storage, S moves))) (0, storage, 0) in
  ret moves.

(** detail/indiesort.h:57-134, for forward and bidirectional iterators. *)
Definition indiesort (inner : (T -> T -> bool) -> (it_and_index -> T) -> range_prog it_and_index)
    (comp : T -> T -> bool) (proj : A -> T) (first last : nat) : M A nat :=
  let* storage := loop (S (last - first)) (fun '(it, index, v) =>
    if it =? last then ret (inr v) else
    let* x := get it in
    ret (inl (S it, S index, v ++ [(it, x, index)]))) (first, 0, []) in
  let* storage := sort_vector (inner comp (fun t => proj (snd (fst t)))) storage in
  if last - first <? 2 then ret 0 else
  indie_move (map (fun t => (fst (fst t), snd t)) storage).
End Indirect.
