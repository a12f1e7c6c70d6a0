(** utility/functional.h: the composition of projections with operator|.

    Simplifications: the values of all types are in one type; the operators are found by argument-dependent lookup, that is, through an operand that
    inherits from projection_base, not through a using-directive. *)
From Coq Require Import List Bool.
Import ListNotations.

Section Model.
Context {V : Type}.

(** utility::identity, std::identity, an object that inherits from projection_base, any other callable, an object made by operator|; the boolean says that
    the member type is_transparent is there. *)
Inductive projection :=
| UtilityIdentity
| StdIdentity
| Inherits (transparent : bool) (f : V -> V)
| Other (transparent : bool) (f : V -> V)
| Piped (lhs rhs : projection).

(** functional.h:31, 38, 120 *)
Definition inherits (p : projection) : bool :=
  match p with UtilityIdentity | Inherits _ _ | Piped _ _ => true | _ => false end.

(** functional.h:50-66, 122-127, through utility::as_function *)
Fixpoint call (p : projection) (x : V) : V :=
  match p with
  | UtilityIdentity | StdIdentity => x
  | Inherits _ f | Other _ f => f x
  | Piped lhs rhs => call rhs (call lhs x)
  end.

(** functional.h:39, 129; detail/raw_checkers.h: raw_check_is_transparent<T, U> has is_transparent if both have it. *)
Fixpoint is_transparent (p : projection) : bool :=
  match p with
  | UtilityIdentity | StdIdentity => true
  | Inherits t _ | Other t _ => t
  | Piped lhs rhs => is_transparent lhs && is_transparent rhs
  end.

(** The type of a parameter of operator|: a template parameter, or one of the two identities by value. *)
Inductive parameter := Template | OfUtilityIdentity | OfStdIdentity.
Definition accepts (a : parameter) (p : projection) : bool :=
  match a, p with
  | Template, _ | OfUtilityIdentity, UtilityIdentity | OfStdIdentity, StdIdentity => true
  | _, _ => false
  end.

(** functional.h:69-114, 137-156: the parameters, the condition of enable_if, what is returned.  [cpp20]: CPPSORT_STD_IDENTITY_AVAILABLE. *)
Definition overloads (cpp20 : bool) (lhs rhs : projection) : list (parameter * parameter * bool * projection) :=
  [ (Template, Template, inherits lhs || inherits rhs, Piped lhs rhs);
    (Template, OfStdIdentity, cpp20 && inherits lhs, lhs);
    (OfStdIdentity, Template, cpp20 && inherits rhs, rhs);
    (Template, OfUtilityIdentity, true, lhs);
    (OfUtilityIdentity, Template, true, rhs);
    (OfUtilityIdentity, OfUtilityIdentity, true, UtilityIdentity) ].

(** Partial ordering: a named type is more specialized than a template parameter; an overload is better if it is at least as specialized for both. *)
Definition at_least (a b : parameter) : bool :=
  match a, b with
  | _, Template | OfUtilityIdentity, OfUtilityIdentity | OfStdIdentity, OfStdIdentity => true
  | _, _ => false
  end.
Definition better (a b : parameter * parameter * bool * projection) : bool :=
  let '(al, ar, _, _) := a in let '(bl, br, _, _) := b in at_least al bl && at_least ar br.

Inductive expression := NoOperator | AmbiguousOperator | Is (p : projection).

(** The expression [lhs | rhs]. *)
Definition pipe (cpp20 : bool) (lhs rhs : projection) : expression :=
  if inherits lhs || inherits rhs then
    let viable := filter (fun '(a, b, c, _) => accepts a lhs && accepts b rhs && c) (overloads cpp20 lhs rhs) in
    match filter (fun a => forallb (better a) viable) viable with
    | [(_, _, _, p)] => Is p
    | _ => match viable with [] => NoOperator | _ => AmbiguousOperator end
    end
  else NoOperator.
End Model.
Arguments projection : clear implicits.
Arguments expression : clear implicits.
