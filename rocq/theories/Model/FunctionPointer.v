(** sorter_facade.h: the conversions of a sorter to function pointers.

    Simplifications: types are numbers, or references to them; const is part of the type; pointers to functions that are noexcept are left out
    (they match no conversion); whether the sorter can be called is left to Model.Facade. *)
From Coq Require Import List Bool Arith.
Import ListNotations.

Inductive type := Object (n : nat) | LvalueReference (n : nat) | RvalueReference (n : nat).
Definition type_eqb (a b : type) : bool :=
  match a, b with Object n, Object m | LvalueReference n, LvalueReference m | RvalueReference n, RvalueReference m => Nat.eqb n m | _, _ => false end.
Inductive result := Void | Result (n : nat).
(** Ret( * )(Args...) *)
Record pointer := Pointer { ret : result; args : list type }.

(** The parameters of the conversion templates: T&, T&& or T, where T is the template parameter of this number. *)
Inductive pattern := Lvalue (v : nat) | Rvalue (v : nat) | Plain (v : nat).
(** sorter_facade.h:85-137, in the order of the file *)
Definition conversions : list (list pattern) :=
  [[Lvalue 0];
   [Rvalue 0];
   [Lvalue 0; Plain 1];
   [Rvalue 0; Plain 1];
   [Lvalue 0; Plain 1; Plain 2];
   [Rvalue 0; Plain 1; Plain 2];
   [Plain 0; Plain 0];
   [Plain 0; Plain 0; Plain 1];
   [Plain 0; Plain 0; Plain 1; Plain 2]].

(** Deduction ([temp.deduct.conv]): T&& matches rvalue references only. *)
Definition bindings := list (nat * type).
Definition lookup (v : nat) (b : bindings) : option type :=
  match find (fun p => Nat.eqb (fst p) v) b with Some p => Some (snd p) | None => None end.
Definition bind (v : nat) (t : type) (b : bindings) : option bindings :=
  match lookup v b with Some t' => if type_eqb t t' then Some b else None | None => Some ((v, t) :: b) end.
Definition deduce_one (p : pattern) (t : type) (b : bindings) : option bindings :=
  match p, t with
  | Lvalue v, LvalueReference n => bind v (Object n) b
  | Rvalue v, RvalueReference n => bind v (Object n) b
  | Plain v, t => bind v t b
  | _, _ => None
  end.
Fixpoint deduce (ps : list pattern) (ts : list type) (b : bindings) : option bindings :=
  match ps, ts with
  | [], [] => Some b
  | p :: ps, t :: ts => match deduce_one p t b with Some b => deduce ps ts b | None => None end
  | _, _ => None
  end.
Definition matches (ps : list pattern) (ts : list type) : bool := match deduce ps ts [] with Some _ => true | None => false end.

(** Partial ordering: the parameters of the one are replaced by unique types, and deduced by the other. *)
Definition unique (p : pattern) : type := match p with Lvalue v => LvalueReference v | Rvalue v => RvalueReference v | Plain v => Object v end.
Definition at_least_as_specialized (p q : list pattern) : bool := matches q (map unique p).
Definition more_specialized (p q : list pattern) : bool := at_least_as_specialized p q && negb (at_least_as_specialized q p).

Definition pattern_eqb (p q : pattern) : bool :=
  match p, q with Lvalue v, Lvalue w | Rvalue v, Rvalue w | Plain v, Plain w => Nat.eqb v w | _, _ => false end.
Fixpoint same_patterns (p q : list pattern) : bool :=
  match p, q with [], [] => true | a :: p, b :: q => pattern_eqb a b && same_patterns p q | _, _ => false end.

(** What the pointer does: it calls a new sorter with arguments of these types, and returns what it gives or not (sorter_facade.h:36-58). *)
Inductive conversion := NoConversion | AmbiguousConversion | Invoke (arguments : list type) (returns : bool) | HardError.
(** The template arguments of invoke: the parameters with the deduced types, a reference for T& and T&&. *)
Definition substitute (b : bindings) (p : pattern) : option type :=
  match p with
  | Lvalue v => match lookup v b with Some (Object n) => Some (LvalueReference n) | _ => None end
  | Rvalue v => match lookup v b with Some (Object n) => Some (RvalueReference n) | _ => None end
  | Plain v => lookup v b
  end.
Fixpoint substitute_all (b : bindings) (ps : list pattern) : option (list type) :=
  match ps with
  | [] => Some []
  | p :: ps => match substitute b p, substitute_all b ps with Some t, Some ts => Some (t :: ts) | _, _ => None end
  end.
(** [empty], [default_constructible]: the sorter implementation is.  The conversions exist if it is empty (sorter_facade.h:69-141 and 151-154); the
    function makes a sorter (lines 44 and 57). *)
Definition convert (empty default_constructible : bool) (p : pointer) : conversion :=
  if negb empty then NoConversion
  else
    let candidates := filter (fun ps => matches ps (args p)) conversions in
    match candidates with
    | [] => NoConversion
    | _ =>
        match filter (fun c => forallb (fun c' => same_patterns c c' || more_specialized c c') candidates) candidates with
        | [c] =>
            match deduce c (args p) [] with
            | Some b =>
                match substitute_all b c with
                | Some ts => if default_constructible then Invoke ts (match ret p with Void => false | Result _ => true end) else HardError
                | None => NoConversion
                end
            | None => NoConversion
            end
        | _ => AmbiguousConversion
        end
    end.
