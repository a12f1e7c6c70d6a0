(** detail/immovable_vector.h: the lifetimes of the elements, with constructors that may throw.

    Simplifications: the values of the elements are left out (Model.Adapters has insert_back with values, without exceptions); destructors do not
    throw; the assertions are not enabled. *)
From Coq Require Import List Bool Arith ZArith.
Import ListNotations.

Record vector := Vector { capacity : nat; alive : nat -> bool; end_ : nat }.
Inductive outcome (A : Type) := Returns (a : A) | Throws (a : A) | Undefined.
Arguments Returns {A} a.
Arguments Throws {A} a.
Arguments Undefined {A}.

Definition set_alive (f : nat -> bool) (i : nat) (b : bool) : nat -> bool := fun j => if Nat.eqb i j then b else f j.
(** ::new(memory_ + i) T(...): undefined past the memory; over an element that lives it would never be destroyed. *)
Definition construct (capacity : nat) (throws : bool) (i : nat) (f : nat -> bool) : outcome (nat -> bool) :=
  if capacity <=? i then Undefined else if f i then Undefined else if throws then Throws f else Returns (set_alive f i true).
(** detail/memory.h:31-51, destroy of [n] elements from [i]: undefined if one does not live. *)
Fixpoint destroy (i n : nat) (f : nat -> bool) : option (nat -> bool) :=
  match n with
  | O => Some f
  | S n => if f i then destroy (S i) n (set_alive f i false) else None
  end.

(** immovable_vector.h:46-52 *)
Definition make (n : nat) : vector := Vector n (fun _ => false) 0.
(** immovable_vector.h:124-131 *)
Definition emplace_back (throws : bool) (v : vector) : outcome vector :=
  match construct (capacity v) throws (end_ v) (alive v) with
  | Returns f => Returns (Vector (capacity v) f (end_ v + 1))
  | Throws f => Throws (Vector (capacity v) f (end_ v))
  | Undefined => Undefined
  end.
(** immovable_vector.h:137-143: the loop, with [writer] when it ends; [l]: whether each constructor throws. *)
Fixpoint insert_loop (capacity : nat) (l : list bool) (writer : nat) (f : nat -> bool) : outcome (nat * (nat -> bool)) :=
  match l with
  | [] => Returns (writer, f)
  | throws :: l =>
      match construct capacity throws writer f with
      | Returns f => insert_loop capacity l (writer + 1) f
      | Throws f => Throws (writer, f)
      | Undefined => Undefined
      end
  end.
(** immovable_vector.h:133-150 *)
Definition insert_back (l : list bool) (v : vector) : outcome vector :=
  match insert_loop (capacity v) l (end_ v) (alive v) with
  | Returns (writer, f) => Returns (Vector (capacity v) f writer)
  | Throws (writer, f) =>
      match destroy (end_ v) (writer - end_ v) f with
      | Some f => Throws (Vector (capacity v) f (end_ v))
      | None => Undefined
      end
  | Undefined => Undefined
  end.
(** immovable_vector.h:113-121 *)
Definition clear (v : vector) : outcome vector :=
  match destroy 0 (end_ v) (alive v) with Some f => Returns (Vector (capacity v) f 0) | None => Undefined end.
(** immovable_vector.h:57-69: the elements that still live once the memory is given back. *)
Definition destructor (v : vector) : option (nat -> bool) := destroy 0 (end_ v) (alive v).

Inductive operation := EmplaceBack (throws : bool) | InsertBack (l : list bool) | Clear.
Definition operate (o : operation) (v : vector) : outcome vector :=
  match o with EmplaceBack b => emplace_back b v | InsertBack l => insert_back l v | Clear => clear v end.
(** Exceptions are caught outside, and the vector used again or destroyed.  None: undefined. *)
Fixpoint use (l : list operation) (v : vector) : option vector :=
  match l with
  | [] => Some v
  | o :: l => match operate o v with Returns v | Throws v => use l v | Undefined => None end
  end.

(** immovable_vector.h:74-79, the assertion of operator[]. *)
Definition subscript_assertion (pos : Z) (v : vector) : bool := (pos <=? Z.of_nat (end_ v))%Z.
