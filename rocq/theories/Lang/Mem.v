(** The execution model: memory, outcomes, elementary operations.

    Models the C++ abstract machine as far as the sorting algorithms of
    cpp-sort observe it.  An iterator is an address ([nat]) into a memory which
    is a list of cells. *)
From Coq Require Import List Arith.
Import ListNotations.

(** A cell is storage without an object, a moved-from object, or a value. *)
Inductive cell (A : Type) : Type :=
| Raw
| Moved
| Val (a : A).
Arguments Raw {A}.
Arguments Moved {A}.
Arguments Val {A} a.

Definition mem (A : Type) := list (cell A).

(** Outcome of running a program on a memory.  [UB] is undefined
    behaviour; [NoFuel] is a loop that exceeded its fuel. *)
Inductive res (A X : Type) : Type :=
| Ok (x : X) (m : mem A)
| UB
| NoFuel.
Arguments Ok {A X} x m.
Arguments UB {A X}.
Arguments NoFuel {A X}.

Definition M (A X : Type) := mem A -> res A X.

Definition ret {A X} (x : X) : M A X := fun m => Ok x m.
Definition bind {A X Y} (c : M A X) (k : X -> M A Y) : M A Y :=
  fun m => match c m with
           | Ok x m' => k x m'
           | UB => UB
           | NoFuel => NoFuel
           end.
Definition ub {A X} : M A X := fun _ => UB.
Definition nofuel {A X} : M A X := fun _ => NoFuel.

Declare Scope prog_scope.
Delimit Scope prog_scope with prog.
Notation "'let*' x ':=' c 'in' k" := (bind c (fun x => k))
  (at level 200, x pattern, c at level 100, k at level 200, right associativity)
  : prog_scope.
Notation "c ;; k" := (bind c (fun _ => k))
  (at level 100, k at level 200, right associativity) : prog_scope.
Open Scope prog_scope.

(** Replace the cell at an address. *)
Fixpoint upd {X : Type} (i : nat) (x : X) (l : list X) : list X :=
  match l, i with
  | [], _ => []
  | _ :: t, 0 => x :: t
  | h :: t, S i' => h :: upd i' x t
  end.

(** [*it] used as an rvalue, an argument of the comparison or of the
    projection, or copied. *)
Definition get {A} (i : nat) : M A A := fun m =>
  match nth_error m i with
  | Some (Val a) => Ok a m
  | _ => UB
  end.

(** [iter_move(it)] whose result initialises a new object: the source is left moved-from. *)
Definition take {A} (i : nat) : M A A := fun m =>
  match nth_error m i with
  | Some (Val a) => Ok a (upd i Moved m)
  | _ => UB
  end.

(** [*it = std::move(tmp)]: assignment to a live (maybe moved-from) object. *)
Definition put {A} (i : nat) (a : A) : M A unit := fun m =>
  match nth_error m i with
  | Some (Val _) | Some Moved => Ok tt (upd i (Val a) m)
  | _ => UB
  end.

(** [*dst = iter_move(src)].  Self-move-assignment is [UB]. *)
Definition move_to {A} (src dst : nat) : M A unit :=
  if Nat.eqb src dst then ub
  else let* x := take src in put dst x.

(** [iter_swap(a, b)].  Swapping an element with itself is allowed. *)
Definition swap {A} (i j : nat) : M A unit := fun m =>
  match nth_error m i, nth_error m j with
  | Some (Val a), Some (Val b) => Ok tt (upd j (Val a) (upd i (Val b) m))
  | _, _ => UB
  end.

(** Placement-new of a value into raw storage. *)
Definition construct {A} (i : nat) (a : A) : M A unit := fun m =>
  match nth_error m i with
  | Some Raw => Ok tt (upd i (Val a) m)
  | _ => UB
  end.

(** Destructor call: the storage is raw afterwards. *)
Definition destroy {A} (i : nat) : M A unit := fun m =>
  match nth_error m i with
  | Some (Val _) | Some Moved => Ok tt (upd i Raw m)
  | _ => UB
  end.

(** Obtain [n] cells of raw storage; the result is their first address. *)
Definition alloc {A} (n : nat) : M A nat := fun m =>
  Ok (length m) (m ++ repeat Raw n).

(** Give back the last [n] cells, which must all be raw: freeing
    storage in which an object still lives would leak it. *)
Definition dealloc {A} (base n : nat) : M A unit := fun m =>
  if Nat.eqb (base + n) (length m)
  then if forallb (fun c => match c with Raw => true | _ => false end) (skipn base m)
       then Ok tt (firstn base m) else UB
  else UB.

(** Loops.  [body s] either continues with a new loop state ([inl])
    or leaves the loop ([inr]). *)
Fixpoint loop {A S R} (fuel : nat) (body : S -> M A (S + R)) (s : S) : M A R :=
  match fuel with
  | 0 => nofuel
  | S n => let* r := body s in
           match r with
           | inl s' => loop n body s'
           | inr x => ret x
           end
  end.

(** Running a sorting program on a range. *)
Definition range_prog (A : Type) := nat -> nat -> M A unit.
