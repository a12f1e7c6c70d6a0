(** Stable partition (detail/stable_partition.h). *)
From Coq Require Import List Arith Bool.
From Verif Require Import Lang.Mem Model.Rotate Model.Buffer.
Import ListNotations.

Section Model.
Context {A : Type} (cat : category) (triv : bool) (pred : A -> bool).

(** detail/stable_partition.h:61-91: the falses are moved to the buffer and the trues to the front, then the falses are moved back.  The
    range is [first, last], both included. *)
Definition partition_buffered (first last len : nat) (b : buffer) : M A nat :=
  let* x := take first in
  construct (fst b) x ;;
  let* (first, it, ptr) := loop (S len) (fun '(first, it, ptr) =>
    if it =? last then ret (inr (first, it, ptr)) else
    let* x := get it in
    if pred x then move_to it first ;; ret (inl (S first, S it, ptr))
    else
      let* x := take it in
      construct ptr x ;;
      ret (inl (first, S it, S ptr))) (first, S first, S (fst b)) in
  move_to it first ;;
  let first := S first in
  let* _ := loop (S len) (fun '(t2, it) =>
    if t2 <? ptr then move_to t2 it ;; ret (inl (S t2, S it)) else ret (inr tt)) (fst b, first) in
  destroy_n (fst b) (ptr - fst b) ;;
  ret first.

(** detail/stable_partition.h:105-110: back from [m1] to the last true before it, with the length up to it; [None]: goto first_half_done. *)
Definition scan_back (first m1 len_half : nat) : M A (option (nat * nat)) :=
  loop (S len_half) (fun '(m1, len_half) =>
    let m1 := m1 - 1 in
    let* x := get m1 in
    if pred x then ret (inr (Some (m1, len_half)))
    else if m1 =? first then ret (inr None)
    else ret (inl (m1, len_half - 1))) (m1, len_half).

(** detail/stable_partition.h:122-127: [None]: goto second_half_done. *)
Definition scan_forth (last m1 len_half : nat) : M A (option (nat * nat)) :=
  loop (S len_half) (fun '(m1, len_half) =>
    let* x := get m1 in
    if pred x then
      let m1 := S m1 in
      if m1 =? last then ret (inr None) else ret (inl (m1, len_half - 1))
    else ret (inr (Some (m1, len_half)))) (m1, len_half).

(** detail/stable_partition.h:34-136.  The range is [first, last], both included. *)
Fixpoint stable_partition_rec (fuel : nat) (first last len : nat) (b : buffer) : M A nat :=
  match fuel with
  | 0 => nofuel
  | S fuel =>
    if len =? 2 then swap first last ;; ret last else
    if len =? 3 then
      let m := S first in
      let* x := get m in
      if pred x then swap first m ;; swap m last ;; ret last
      else swap m last ;; swap first m ;; ret m
    else if len <=? snd b then partition_buffered first last len b
    else
      let len2 := len / 2 in
      let m := first + len2 in
      let* o := scan_back first m len2 in
      let* first_false :=
        match o with
        | Some (m1, len_half) => stable_partition_rec fuel first m1 len_half b
        | None => ret first
        end in
      let* o := scan_forth last m (len - len2) in
      let* second_false :=
        match o with
        | Some (m1, len_half) => stable_partition_rec fuel m1 last len_half b
        | None => ret (S last)
        end in
      rotate cat triv first_false m second_false
  end.

(** detail/stable_partition.h:138-178. *)
Definition stable_partition (o : oracle) (first last size : nat) : M A nat :=
  let* (all_true, first, size) := loop (S (last - first)) (fun '(first, size) =>
    if first =? last then ret (inr (true, first, size)) else
    let* x := get first in
    if negb (pred x) then ret (inr (false, first, size)) else ret (inl (S first, size - 1))) (first, size) in
  if all_true : bool then ret first else
  let* (all_false, last, size) := loop (S (last - first)) (fun '(last, size) =>
    let size := size - 1 in
    let last := last - 1 in
    if first =? last then ret (inr (true, last, size)) else
    let* x := get last in
    if negb (pred x) then ret (inl (last, size)) else ret (inr (false, last, size))) (last, size) in
  if all_false : bool then ret first else
  let len := size + 1 in
  let* b := if 4 <=? len then try_grow o len null_buffer else ret null_buffer in
  let* r := stable_partition_rec (S len) first last len b in
  return_temporary_buffer b ;;
  ret r.
End Model.
