(** Binary searches. *)
From Coq Require Import List Arith Bool.
From Verif Require Import Lang.Mem.
Import ListNotations.

Section Model.
Context {A T : Type}.

(** detail/lower_bound.h:21-40. *)
Definition lower_bound_n (comp : T -> T -> bool) (proj : A -> T) (first size : nat) (value : T) : M A nat :=
  loop (S size) (fun '(first, size) =>
    if 0 <? size then
      let it := first + size / 2 in
      let* x := get it in
      if comp (proj x) value then ret (inl (S it, size - (size / 2 + 1)))
      else ret (inl (first, size / 2))
    else ret (inr first)) (first, size).

(** detail/lower_bound.h:42-51. *)
Definition lower_bound (comp : T -> T -> bool) (proj : A -> T) (first last : nat) (value : T) : M A nat :=
  lower_bound_n comp proj first (last - first) value.

(** comparators/not_fn.h and comparators/flip.h: not_fn(flip(comp)). *)
Definition not_fn_flip (comp : T -> T -> bool) : T -> T -> bool := fun x y => negb (comp y x).

(** detail/upper_bound.h:22-34. *)
Definition upper_bound_n (comp : T -> T -> bool) (proj : A -> T) (first size : nat) (value : T) : M A nat :=
  lower_bound_n (not_fn_flip comp) proj first size value.

(** detail/upper_bound.h:36-48. *)
Definition upper_bound (comp : T -> T -> bool) (proj : A -> T) (first last : nat) (value : T) : M A nat :=
  lower_bound_n (not_fn_flip comp) proj first (last - first) value.

(** detail/lower_bound.h:53-78. *)
Definition lower_monobound_n (comp : T -> T -> bool) (proj : A -> T) (first size : nat) (value : T) : M A nat :=
  if size =? 0 then ret first else
  let* first := loop (S size) (fun '(first, size) =>
    if 1 <? size then
      let it := first + size / 2 in
      let* x := get it in
      ret (inl (if comp (proj x) value then it else first, size - size / 2))
    else ret (inr first)) (first, size) in
  let* x := get first in
  ret (if comp (proj x) value then S first else first).
End Model.
