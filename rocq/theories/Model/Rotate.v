(** Moving, swapping, reversing and rotating ranges. *)
From Coq Require Import List Arith Bool.
From Verif Require Import Lang.Mem.
Import ListNotations.

(** Iterator categories (only their order matters). *)
Inductive category := Forward | Bidirectional | RandomAccess.

Section Model.
Context {A : Type}.

(** detail/move.h:26-48 (std::move is the same loop). Result: the end of the destination. *)
Definition move_range (first last result : nat) : M A nat :=
  loop (S (last - first)) (fun '(first, result) =>
    if first =? last then ret (inr result) else
    move_to first result ;; ret (inl (S first, S result))) (first, result).

(** detail/move.h:53-75. [result] is the end of the destination; the result is its beginning. *)
Definition move_backward (first last result : nat) : M A nat :=
  loop (S (last - first)) (fun '(last, result) =>
    if first =? last then ret (inr result) else
    move_to (last - 1) (result - 1) ;; ret (inl (last - 1, result - 1))) (last, result).

(** detail/move.h:88-110, overload for non-trivial types: constructs into raw storage. The count kept
    by the destroyer is [last - first] on return. *)
Definition uninitialized_move (first last result : nat) : M A nat :=
  loop (S (last - first)) (fun '(first, result) =>
    if first =? last then ret (inr result) else
    let* x := take first in
    construct result x ;; ret (inl (S first, S result))) (first, result).

(** detail/memory.h:53-61. *)
Definition destroy_n (first n : nat) : M A unit :=
  loop (S n) (fun '(first, n) =>
    if n =? 0 then ret (inr tt) else
    destroy first ;; ret (inl (S first, n - 1))) (first, n).

(** detail/swap_ranges.h:32-44 (and swap_ranges_inner, lines 97-126, whose assertions hold for disjoint ranges). *)
Definition swap_ranges (first1 last1 first2 : nat) : M A nat :=
  loop (S (last1 - first1)) (fun '(first1, first2) =>
    if first1 =? last1 then ret (inr first2) else
    swap first1 first2 ;; ret (inl (S first1, S first2))) (first1, first2).

(** detail/reverse.h:32-44, bidirectional iterators. *)
Definition reverse_bidirectional (first last : nat) : M A unit :=
  loop (S (last - first)) (fun '(first, last) =>
    if first =? last then ret (inr tt) else
    let last := last - 1 in
    if first =? last then ret (inr tt) else
    swap first last ;; ret (inl (S first, last))) (first, last).

(** detail/reverse.h:59-77, random-access iterators. *)
Definition reverse_random_access (first last : nat) : M A unit :=
  if first =? last then ret tt else
  loop (S (last - first)) (fun '(first, last) =>
    let last := last - 1 in
    if first <? last then swap first last ;; ret (inl (S first, last))
    else ret (inr tt)) (first, last).

(** detail/reverse.h:79-85. *)
Definition reverse (cat : category) (first last : nat) : M A unit :=
  match cat with
  | RandomAccess => reverse_random_access first last
  | _ => reverse_bidirectional first last
  end.

(** detail/rotate.h:32-42. *)
Definition rotate_left (first last : nat) : M A nat :=
  let* tmp := take first in
  let* lm1 := move_range (S first) last first in
  put lm1 tmp ;; ret lm1.

(** detail/rotate.h:44-55. *)
Definition rotate_right (first last : nat) : M A nat :=
  let lm1 := last - 1 in
  let* tmp := take lm1 in
  let* fp1 := move_backward first lm1 last in
  put first tmp ;; ret fp1.

(** detail/rotate.h:64-72, first loop; the result is (first, middle). *)
Definition rotate_forward_1 (first middle last : nat) : M A (nat * nat) :=
  loop (S (last - first)) (fun '(first, middle, i) =>
    swap first i ;;
    let first := S first in
    let i := S i in
    if i =? last then ret (inr (first, middle)) else
    let middle := if first =? middle then i else middle in
    ret (inl (first, middle, i))) (first, middle, middle).

(** detail/rotate.h:76-89, second loop. *)
Definition rotate_forward_2 (first middle last : nat) : M A unit :=
  loop (S (last - first)) (fun '(first, middle, i) =>
    swap first i ;;
    let first := S first in
    let i := S i in
    if i =? last then
      if first =? middle then ret (inr tt) else ret (inl (first, middle, middle))
    else
      let middle := if first =? middle then i else middle in
      ret (inl (first, middle, i))) (first, middle, middle).

(** detail/rotate.h:57-92. *)
Definition rotate_forward (first middle last : nat) : M A nat :=
  let* (first, middle) := rotate_forward_1 first middle last in
  let r := first in
  (if first =? middle then ret tt else rotate_forward_2 first middle last) ;;
  ret r.

(** detail/rotate.h:94-105. [x % 0] is undefined. *)
Definition gcd (x y : nat) : M A nat :=
  if y =? 0 then ub else
  loop (S y) (fun '(x, y) =>
    let t := x mod y in
    let x := y in
    let y := t in
    if y =? 0 then ret (inr x) else ret (inl (x, y))) (x, y).

(** detail/rotate.h:125-138, one cycle. *)
Definition rotate_cycle (first last m1 p : nat) : M A unit :=
  let* t := take p in
  let* p1 := loop (S (last - first)) (fun '(p1, p2) =>
      move_to p2 p1 ;;
      let p1 := p2 in
      let d := last - p2 in
      let p2 := if m1 <? d then p2 + m1 else first + (m1 - d) in
      if p2 =? p then ret (inr p1) else ret (inl (p1, p2)))
    (p, p + m1) in
  put p1 t.

(** detail/rotate.h:107-141. *)
Definition rotate_gcd (first middle last : nat) : M A nat :=
  let m1 := middle - first in
  let m2 := last - middle in
  if m1 =? m2 then
    swap_ranges first middle middle ;; ret middle
  else
    let* g := gcd m1 m2 in
    loop (S g) (fun p =>
      if p =? first then ret (inr tt) else
      let p := p - 1 in
      rotate_cycle first last m1 p ;; ret (inl p)) (first + g) ;;
    ret (first + m2).

(** detail/rotate.h:143-188. [triv]: is_trivially_move_assignable<value_type>. *)
Definition rotate_impl (cat : category) (triv : bool) (first middle last : nat) : M A nat :=
  match cat with
  | Forward =>
      if triv && (S first =? middle) then rotate_left first last
      else rotate_forward first middle last
  | Bidirectional =>
      if triv && (S first =? middle) then rotate_left first last
      else if triv && (S middle =? last) then rotate_right first last
      else rotate_forward first middle last
  | RandomAccess =>
      if triv then
        if S first =? middle then rotate_left first last
        else if S middle =? last then rotate_right first last
        else rotate_gcd first middle last
      else rotate_forward first middle last
  end.

(** detail/rotate.h:190-199. *)
Definition rotate (cat : category) (triv : bool) (first middle last : nat) : M A nat :=
  if first =? middle then ret last else
  if middle =? last then ret first else
  rotate_impl cat triv first middle last.
End Model.
