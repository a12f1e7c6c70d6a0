(** Temporary buffers.

    Whether an allocation attempt succeeds is given by an oracle: a function from a path (which call, which
    iteration, which attempt) to a boolean.  Distinct attempts of an execution read the oracle at distinct paths, so that
    quantifying over all the oracles covers every sequence of successes and failures. *)
From Coq Require Import List Arith Bool.
From Verif Require Import Lang.Mem.
Import ListNotations.

Definition oracle := list nat -> bool.
Definition sub (i : nat) (o : oracle) : oracle := fun p => o (i :: p).

Section Model.
Context {A : Type}.

(** A temporary_buffer: address and size (detail/memory.h:193-283, members of lines 281-282). *)
Definition buffer := (nat * nat)%type.
Definition null_buffer : buffer := (0, 0).

(** detail/memory.h:153-176: the size obtained, 0 if none.  The cap at PTRDIFF_MAX / sizeof(T) of lines
    159-163 is not modelled (sizes are unbounded). *)
Definition get_temporary_buffer (o : oracle) (count min_count : nat) : M A nat :=
  loop (S count) (fun '(k, count) =>
    if min_count <? count then
      if o [k] then ret (inr count) else ret (inl (S k, count / 2))
    else ret (inr 0)) (0, count).

(** detail/memory.h:178-188: deleting a null pointer does nothing. *)
Definition return_temporary_buffer (b : buffer) : M A unit :=
  let '(base, size) := b in
  if size =? 0 then ret tt else dealloc base size.

(** detail/memory.h:220-225, constructor. *)
Definition temporary_buffer (o : oracle) (count : nat) : M A buffer :=
  let* n := get_temporary_buffer o count 0 in
  if n =? 0 then ret null_buffer else
  let* base := alloc n in ret (base, n).

(** detail/memory.h:264-277.  Simplification: on success the old buffer is given back before the new
    one is obtained (the code does it just after; no other memory operation takes place in between). *)
Definition try_grow (o : oracle) (count : nat) (b : buffer) : M A buffer :=
  let* n := get_temporary_buffer o count (snd b) in
  if n =? 0 then ret b else
  return_temporary_buffer b ;;
  let* base := alloc n in ret (base, n).
End Model.
