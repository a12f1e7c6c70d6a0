(** detail/scope_exit.h, and the adapters that use it to put the elements in their place: indirect_adapter.h, detail/indiesort.h,
    out_of_place_adapter.h, when an exception may be thrown.

    Simplifications: the adapted sorter is any function of the buffer that returns or throws, and leaves some buffer; moving elements, and
    the allocations, do not throw; std::uncaught_exceptions() is a number that grows by one when an exception leaves the scope of a guard. *)
From Coq Require Import List Bool ZArith.
Import ListNotations.
Local Open Scope Z_scope.

(** ** The guards: scope_exit.h:19-72 and 75-129.  [uncaught_on_creation] is None for scope_exit. *)
Record guard := Guard { execute_on_destruction : bool; uncaught_on_creation : option Z }.
(** Lines 24-34 and 80-91. *)
Definition make_scope_exit : guard := Guard true None.
Definition make_scope_success (uncaught : Z) : guard := Guard true (Some uncaught).
(** Lines 50-60 and 107-117. *)
Inductive operation := Activate | Deactivate.
Definition operate (g : guard) (o : operation) : guard :=
  Guard (match o with Activate => true | Deactivate => false end) (uncaught_on_creation g).
(** Lines 42-48 and 99-105: does the destructor call the function? *)
Definition destroy (g : guard) (uncaught : Z) : bool :=
  execute_on_destruction g && match uncaught_on_creation g with None => true | Some n => uncaught <=? n end.
(** Lines 36-40 and 93-97: the constructor that moves.  The guard that is moved from, and the new one. *)
Definition move (g : guard) (uncaught : Z) : guard * guard :=
  (g, Guard true (match uncaught_on_creation g with None => None | Some _ => Some uncaught end)).

(** ** The adapters *)
Inductive outcome (B : Type) := Returns (b : B) | Throws (b : B).
Arguments Returns {B}. Arguments Throws {B}.
(** The objects of a collection: an exception may leave some without their value. *)
Inductive object (A : Type) := Value (a : A) | MovedFrom.
Arguments Value {A}. Arguments MovedFrom {A}.

Section Adapters.
Context {A : Type}.
Definition collection := list (object A).

(** indirect_adapter.h:51-139 and indiesort.h:58-136: [write_back] moves the elements according to the sorted iterators; the sorter compares the
    elements through iterators and moves the iterators only.  The boolean: an exception is thrown. *)
Definition sort_indirectly (write_back : list nat -> collection -> collection) (sorter : collection -> list nat -> outcome (list nat))
    (uncaught : Z) (c : collection) : collection * bool :=
  let iterators := seq 0 (length c) in
  let g := make_scope_success uncaught in
  let g := if (length c <? 2)%nat then operate g Deactivate else g in
  match sorter c iterators with
  | Returns iterators => (if destroy g uncaught then write_back iterators c else c, false)
  | Throws iterators => (if destroy g (uncaught + 1) then write_back iterators c else c, true)
  end.

(** out_of_place_adapter.h:33-58: the elements are moved into the buffer. *)
Definition sort_out_of_place (sorter : collection -> outcome collection) (uncaught : Z) (c : collection) : collection * bool :=
  let buffer := c in
  let c := map (fun _ => MovedFrom) c in
  let g := make_scope_success uncaught in
  match sorter buffer with
  | Returns buffer => (if destroy g uncaught then buffer else c, false)
  | Throws buffer => (if destroy g (uncaught + 1) then buffer else c, true)
  end.
End Adapters.
