(** detail/associate_iterator.h: how the elements are moved when a sorter works on associations, as in stable_adapter and schwartz_adapter, nested in any
    way: with the functions of the iterator or not, whether it compiles, and what happens to exceptions.

    Simplifications: the data members are left out, moving them does not throw; the copy of an associated_value that a function returns is elided. *)
From Coq Require Import List ZArith Bool.
From Verif Require Import Model.IterMove.
Import ListNotations.
Open Scope Z_scope.

(** The iterator of the collection, or an associate_iterator over associations with the given iterator (stable_adapter.h:89-109,
    schwartz_adapter.h:66-95). *)
Inductive iterator := Plain (k : kind) | Associate (it : iterator).

(** What an assignment moves from. *)
Inductive source := FromIterator (m : moved) | FromTemporary.
(** The operations on the elements of the collection: a temporary is constructed, the element at a position is assigned to, two are swapped. *)
Inductive action := Constructed (m : moved) | Assigned (z : Z) (s : source) | Swapped (s : swapped).
(** An action, and whether a function that is noexcept is on the stack. *)
Definition step : Type := bool * action.

(** [T tmp(std::move( *it))]: an association is not move-constructible (associate_iterator.h:53-56). *)
Definition construct_from_deref (it : iterator) (z : Z) : option (list step) :=
  match it with
  | Plain _ => Some [(false, Constructed (ByStdMove z))]
  | Associate _ => None
  end.

(** [auto tmp = iter_move(it)]: iter_move.h:78-84 gives a reference; associate_iterator.h:342-353 makes an associated_value from
    [std::move( *(it->it))] (119-122). *)
Definition construct (it : iterator) (z : Z) : option (list step) :=
  match it with
  | Plain k => Some [(false, Constructed (iter_move All (Base k) z))]
  | Associate it => construct_from_deref it z
  end.

(** [*it = std::move(tmp)] with such a temporary: associate_iterator.h:75-81; its value is then an element, as [construct] compiles. *)
Definition assign_temporary (it : iterator) (z : Z) : list step := [(false, Assigned z FromTemporary)].

(** [*dst = iter_move(src)]: the associated_value is a temporary. *)
Definition assign_iter_move (it : iterator) (src dst : Z) : option (list step) :=
  match it with
  | Plain k => Some [(false, Assigned dst (FromIterator (iter_move All (Base k) src)))]
  | Associate _ => option_map (fun c => c ++ assign_temporary it dst) (construct it src)
  end.

(** [*dst = std::move( *src)]: associate_iterator.h:67-73, noexcept. *)
Fixpoint assign_deref (it : iterator) (src dst : Z) : list step :=
  match it with
  | Plain _ => [(false, Assigned dst (FromIterator (ByStdMove src)))]
  | Associate it => map (fun s => (true, snd s)) (assign_deref it src dst)
  end.

(** [iter_swap(i, j)]: associate_iterator.h:335-340 swaps the associations, for which argument-dependent lookup finds 98-106. *)
Fixpoint swap_elements (it : iterator) (i j : Z) : list step :=
  match it with
  | Plain k => [(false, Swapped (iter_swap All (Base k) i j))]
  | Associate it => swap_elements it i j
  end.

(** What a sorter does with the iterators. *)
Inductive op := Take (z : Z) | Put (z : Z) | Move (src dst : Z) | MoveDeref (src dst : Z) | Swap (i j : Z).
Definition steps_of (it : iterator) (o : op) : option (list step) :=
  match o with
  | Take z => construct it z
  | Put z => Some (assign_temporary it z)
  | Move src dst => assign_iter_move it src dst
  | MoveDeref src dst => Some (assign_deref it src dst)
  | Swap i j => Some (swap_elements it i j)
  end.
(** [None]: the sorter does not compile. *)
Fixpoint steps (it : iterator) (p : list op) : option (list step) :=
  match p with
  | [] => Some []
  | o :: p =>
      match steps_of it o, steps it p with
      | Some s, Some t => Some (s ++ t)
      | _, _ => None
      end
  end.

Inductive outcome := Returns (done : list action) | Throws (done : list action) | Terminates (done : list action).
Definition after (a : action) (r : outcome) : outcome :=
  match r with Returns d => Returns (a :: d) | Throws d => Throws (a :: d) | Terminates d => Terminates (a :: d) end.
(** [throws n a]: the [n]-th operation on the elements, [a], throws. *)
Fixpoint run (throws : nat -> action -> bool) (n : nat) (l : list step) : outcome :=
  match l with
  | [] => Returns []
  | (nothrow, a) :: l =>
      if throws n a then (if nothrow then Terminates [] else Throws []) else after a (run throws (S n) l)
  end.
