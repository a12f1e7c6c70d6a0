(** Poplar sort. *)
From Coq Require Import List Arith Bool.
From Verif Require Import Lang.Mem Model.Basic Model.Insertion.
Import ListNotations.

(** detail/bitops.h:31-41: the greatest power of two which is at most [n]; 0 for 0.  The result of the bit operations is modelled, not
    the operations. *)
Definition hyperfloor (n : nat) : nat := if n =? 0 then 0 else 2 ^ Nat.log2 n.

Section Model.
Context {A T : Type} (comp : T -> T -> bool) (proj : A -> T).
Notation less := (less_at comp proj).

(** detail/poplar_sort.h:65-84, one iteration; it leaves the loop with the position for the value. *)
Definition sift_body (value : A) : nat * nat * nat -> M A (nat * nat * nat + nat) := fun '(root, max_root, size) =>
  move_to max_root root ;;
  let size := size / 2 in
  if size <? 2 then ret (inr max_root) else
  let root := max_root in
  let child_root1 := root - 1 in
  let child_root2 := root - (size - size / 2) in
  let* c := less child_root2 child_root1 in
  let max_child_it := if (c : bool) then child_root1 else child_root2 in
  let* y := get max_child_it in
  let max_root := if comp (proj value) (proj y) then max_child_it else max_root in
  if max_root =? root then ret (inr max_root) else ret (inl (root, max_root, size)).

(** detail/poplar_sort.h:39-87. *)
Definition poplar_sift (first size : nat) : M A unit :=
  if size <? 2 then ret tt else
  let root := first + (size - 1) in
  let child_root1 := root - 1 in
  let child_root2 := first + (size / 2 - 1) in
  let max_root := root in
  let* c := less max_root child_root1 in
  let max_root := if (c : bool) then child_root1 else max_root in
  let* c := less max_root child_root2 in
  let max_root := if (c : bool) then child_root2 else max_root in
  if max_root =? root then ret tt else
  let* value := take root in
  let* max_root := loop size (sift_body value) (root, max_root, size) in
  put max_root value.

(** detail/poplar_sort.h:25-37: begin, end, size. *)
Definition poplar := (nat * nat * nat)%type.
(** The iterator [--end]; decrementing the begin of the memory is out of bounds. *)
Definition root (p : poplar) : nat := snd (fst p) - 1.

(** detail/poplar_sort.h:89-113.  The vector of poplars is the list [back :: rest], last poplar first: the loop goes through [rev rest]. *)
Definition relocate (back : poplar) (rest : list poplar) : M A unit :=
  let* (bigger, moved) := loop (S (length rest)) (fun '(bigger, moved, it) =>
    match it with
    | [] => ret (inr (bigger, moved))
    | p :: it =>
      let* c := less (root bigger) (root p) in
      ret (inl (if (c : bool) then (p, true, it) else (bigger, moved, it)))
    end) (back, false, rev rest) in
  if (moved : bool) then
    swap (root bigger) (root back) ;;
    poplar_sift (fst (fst bigger)) (snd bigger)
  else ret tt.

(** detail/poplar_sort.h:115-134. *)
Fixpoint make_poplar (fuel : nat) (first last : nat) : M A unit :=
  match fuel with
  | 0 => nofuel
  | S fuel =>
    let size := last - first in
    if size <? 16 then insertion_sort comp proj first last else
    let middle := first + size / 2 in
    make_poplar fuel first middle ;;
    make_poplar fuel middle (last - 1) ;;
    poplar_sift first size
  end.

(** detail/poplar_sort.h:166-177. *)
Definition make_poplars (first last poplar_size : nat) : M A (list poplar) :=
  loop (S (last - first + poplar_size)) (fun '(it, poplar_size, poplars) =>
    if poplar_size <=? last - it then
      let begin := it in
      let end_ := it + poplar_size in
      make_poplar (S poplar_size) begin end_ ;;
      let poplars := (begin, end_, poplar_size) :: poplars in
      if 0 <? poplar_size then ret (inl (end_, poplar_size, poplars)) else ret (inr poplars)
    else
      let poplar_size := (poplar_size + 1) / 2 - 1 in
      if 0 <? poplar_size then ret (inl (it, poplar_size, poplars)) else ret (inr poplars))
    (first, poplar_size, []).

(** detail/poplar_sort.h:189-195 and 198-204: replace the last poplar by its two children. *)
Definition split_back (back : poplar) (rest : list poplar) : list poplar :=
  let '(begin, old_end, size) := back in
  let new_size := (size - 1) / 2 in
  let middle := begin + new_size in
  (middle, old_end - 1, new_size) :: (begin, middle, new_size) :: rest.

(** detail/poplar_sort.h:180-207.  An empty vector has no last element. *)
Definition sort_poplars (fuel : nat) (poplars : list poplar) : M A unit :=
  loop fuel (fun poplars =>
    match poplars with
    | [] => ub
    | back :: rest =>
      relocate back rest ;;
      if snd back =? 1 then
        match rest with
        | [] => ret (inr tt)
        | [back'] =>
          if snd back' =? 1 then ret (inr tt) else ret (inl (split_back back' []))
        | _ => if 1 <? length rest then ret (inl rest) else ret (inr tt)
        end
      else
        let poplars := split_back back rest in
        if 1 <? length poplars then ret (inl poplars) else ret (inr tt)
    end) poplars.

(** detail/poplar_sort.h:136-208. *)
Definition poplar_sort (first last : nat) : M A unit :=
  let size := last - first in
  if size <? 2 then ret tt else
  let poplar_size := hyperfloor (size + 1) - 1 in
  let* poplars := make_poplars first last poplar_size in
  sort_poplars (S size) poplars.

(** sorters/poplar_sorter.h:40-54. *)
Definition poplar_sorter : range_prog A := poplar_sort.
End Model.
