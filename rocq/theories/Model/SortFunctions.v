(** sort.h and stable_sort.h: overload resolution between the sorting functions.

    Simplifications: the arguments of a call are of the kinds below, and two of them have the same type only if they are both iterators; what the default
    sorter, or the sorter that is given, makes of its arguments is the subject of other properties (C74, C82); [accepts] stands for the calls that the
    given sorter accepts, and stable_t of it as well (C80). *)
From Coq Require Import List Arith Bool.
Import ListNotations.

(** What becomes of a comparison that is asked whether it takes two iterators: it does not, it does (std::less<> with random-access iterators), or the
    question is an error (a generic lambda whose body does not make sense for iterators). *)
Inductive answer := No | Yes | Error.
Inductive fn := Comparison (on_iterators : answer) | Projection.
Inductive type := Sorter | Iterable | Iterator | Fun (f : fn).
(** An argument: its type and its value category. *)
Inductive value_category := ConstLvalue | Lvalue | Rvalue.
Definition argument := (type * value_category)%type.

Definition answer_eqb (a b : answer) : bool := match a, b with No, No | Yes, Yes | Error, Error => true | _, _ => false end.
Definition type_eqb (a b : type) : bool :=
  match a, b with
  | Sorter, Sorter | Iterable, Iterable | Iterator, Iterator | Fun Projection, Fun Projection => true
  | Fun (Comparison r), Fun (Comparison r') => answer_eqb r r'
  | _, _ => false
  end.

(** std::conjunction does not ask the second question if the answer to the first one is no; && between variable templates asks them all. *)
Definition neg (a : answer) : answer := match a with No => Yes | Yes => No | Error => Error end.
Definition conj (a b : answer) : answer := match a with Yes => b | _ => a end.
Definition both (a b : answer) : answer := match a, b with Error, _ | _, Error => Error | Yes, Yes => Yes | _, _ => No end.
Definition either (a b : answer) : answer := neg (both (neg a) (neg b)).
Definition answer_of (b : bool) : answer := if b then Yes else No.

(** How a parameter is declared: T, T&& or const T&. *)
Inductive declaration := ByValue | Forwarding | ConstReference.
(** The template parameter and the declaration of each parameter. *)
Definition signature := list (nat * declaration).
(** What is called: the sorter, and with which arguments. *)
Inductive callee := DefaultSorter | GivenSorter.
Inductive body := Default | Given.
Record overload := Overload { parameters : signature; condition : (nat -> type) -> answer; does : body }.
Inductive result := CompileError | Runs (c : callee) (args : list type).

(** Template argument deduction: each template parameter has one type. *)
Fixpoint lookup (n : nat) (l : list (nat * type)) : option type :=
  match l with [] => None | (m, t) :: l => if n =? m then Some t else lookup n l end.
Fixpoint deduce (s : signature) (args : list argument) (found : list (nat * type)) : option (list (nat * type)) :=
  match s, args with
  | [], [] => Some found
  | (n, _) :: s, (t, _) :: args =>
    match lookup n found with
    | Some t' => if type_eqb t t' then deduce s args found else None
    | None => deduce s args ((n, t) :: found)
    end
  | _, _ => None
  end.
Definition valuation (found : list (nat * type)) (n : nat) : type := match lookup n found with Some t => t | None => Iterable end.

(** No: not viable; Error: the condition is an error. *)
Definition viable (args : list argument) (o : overload) : answer :=
  match deduce (parameters o) args [] with Some found => condition o (valuation found) | None => No end.

(** [over.ics.rank]: binding a reference to something less const is better, and binding an rvalue reference to an rvalue. *)
Definition better_binding (v : value_category) (d e : declaration) : bool :=
  match d, e, v with Forwarding, ConstReference, (Lvalue | Rvalue) => true | _, _, _ => false end.
Fixpoint exists3 (f : value_category -> declaration -> declaration -> bool) (args : list argument) (s s' : signature) : bool :=
  match args, s, s' with
  | (_, v) :: args, (_, d) :: s, (_, e) :: s' => f v d e || exists3 f args s s'
  | _, _, _ => false
  end.

(** [temp.deduct.partial]: the parameters of [s'] can be deduced from those of [s], and no parameter of [s] is a forwarding reference where [s'] has an
    lvalue reference. *)
Fixpoint agree (n m : nat) (s s' : signature) : bool :=
  match s, s' with
  | (n', _) :: s, (m', _) :: s' => (negb (m =? m') || (n =? n')) && agree n m s s'
  | _, _ => true
  end.
Fixpoint at_least_as_specialized (s s' : signature) : bool :=
  match s, s' with
  | (n, d) :: s, (m, e) :: s' =>
    agree n m s s' && negb (match d, e with Forwarding, ConstReference => true | _, _ => false end) && at_least_as_specialized s s'
  | _, _ => true
  end.

(** [over.match.best] *)
Definition better (args : list argument) (s s' : signature) : bool :=
  negb (exists3 (fun v d e => better_binding v e d) args s s') &&
  (exists3 better_binding args s s' || (at_least_as_specialized s s' && negb (at_least_as_specialized s' s))).

Fixpoint best (args : list argument) (l others : list overload) : option overload :=
  match l with
  | [] => None
  | o :: l => if forallb (fun o' => better args (parameters o) (parameters o')) (others ++ l) then Some o else best args l (others ++ [o])
  end.

Section Call.
(** The calls that the given sorter accepts: with an iterable or with iterators, and these functions. *)
Variable accepts : bool -> list fn -> bool.

Fixpoint functions (l : list type) : option (list fn) :=
  match l with
  | [] => Some []
  | Fun f :: l => option_map (cons f) (functions l)
  | _ => None
  end.
(** The functions of a call of a sorter with an iterable (true) or with iterators (false). *)
Definition sorter_call (l : list type) : option (bool * list fn) :=
  match l with
  | Iterable :: l => option_map (pair true) (functions l)
  | Iterator :: Iterator :: l => option_map (pair false) (functions l)
  | _ => None
  end.
Definition default_accepts (fs : list fn) : bool :=
  match fs with [] | [_] | [Comparison _; Projection] => true | _ => false end.

(** std::is_invocable *)
Definition invocable (x : type) (args : list type) : answer :=
  match x with
  | Sorter => match sorter_call args with Some (w, fs) => answer_of (accepts w fs) | None => No end
  | Fun (Comparison r) => match args with [Iterator; Iterator] => r | _ => No end
  | _ => No
  end.

(** sorter_traits.h:28-66; None stands for std::less<>, or for utility::identity. *)
Definition is_comparison (c : option type) : answer := match c with None | Some (Fun (Comparison _)) => Yes | _ => No end.
Definition is_projection_function (p : option type) : answer := match p with None | Some (Fun Projection) => Yes | _ => No end.
Definition is_projection (p : option type) (x : type) (c : option type) : answer :=
  conj (answer_of (type_eqb x Iterable)) (conj (is_projection_function p) (is_comparison c)).
Definition is_projection_iterator (p : option type) (x : type) (c : option type) : answer :=
  conj (answer_of (type_eqb x Iterator)) (conj (is_projection_function p) (is_comparison c)).

(** sorter_traits.h:71-194 *)
Definition is_sorter (s x : type) : answer := invocable s [x].
Definition is_comparison_sorter (s x c : type) : answer := conj (invocable s [x; c]) (is_projection None x (Some c)).
Definition is_projection_sorter (s x p : type) : answer := conj (invocable s [x; p]) (is_projection (Some p) x None).
Definition is_sorter_iterator (s x : type) : answer := invocable s [x; x].
Definition is_comparison_sorter_iterator (s x c : type) : answer := conj (invocable s [x; x; c]) (is_projection_iterator None x (Some c)).
Definition is_projection_sorter_iterator (s x p : type) : answer := conj (invocable s [x; x; p]) (is_projection_iterator (Some p) x None).

(** sort.h:20-187, in order. *)
Definition sort_overloads : list overload :=
  [ Overload [(0, Forwarding)] (fun _ => Yes) Default;
    Overload [(0, Forwarding); (1, ByValue)] (fun t => neg (is_sorter (t 0) (t 1))) Default;
    Overload [(0, Forwarding); (1, ByValue); (2, ByValue)]
      (fun t => both (neg (is_comparison_sorter (t 0) (t 1) (t 2))) (both (neg (is_projection_sorter (t 0) (t 1) (t 2)))
                (both (neg (is_sorter_iterator (t 0) (t 1))) (is_projection (Some (t 2)) (t 0) (Some (t 1)))))) Default;
    Overload [(0, ByValue); (0, ByValue)] (fun _ => Yes) Default;
    Overload [(0, ByValue); (0, ByValue); (1, ByValue)] (fun t => neg (is_sorter_iterator (t 0) (t 1))) Default;
    Overload [(0, ByValue); (0, ByValue); (1, ByValue); (2, ByValue)]
      (fun t => both (neg (is_comparison_sorter_iterator (t 0) (t 1) (t 2))) (neg (is_projection_sorter_iterator (t 0) (t 1) (t 2)))) Default;
    Overload [(0, ConstReference); (1, Forwarding)] (fun t => is_sorter (t 0) (t 1)) Given;
    Overload [(0, ConstReference); (1, Forwarding); (2, ByValue)]
      (fun t => either (is_comparison_sorter (t 0) (t 1) (t 2)) (is_projection_sorter (t 0) (t 1) (t 2))) Given;
    Overload [(0, ConstReference); (1, Forwarding); (2, ByValue); (3, ByValue)] (fun _ => Yes) Given;
    Overload [(0, ConstReference); (1, ByValue); (1, ByValue)] (fun t => is_sorter_iterator (t 0) (t 1)) Given;
    Overload [(0, ConstReference); (1, ByValue); (1, ByValue); (2, ByValue)]
      (fun t => either (is_comparison_sorter_iterator (t 0) (t 1) (t 2)) (is_projection_sorter_iterator (t 0) (t 1) (t 2))) Given;
    Overload [(0, ConstReference); (1, ByValue); (1, ByValue); (2, ByValue); (3, ByValue)] (fun _ => Yes) Given ].

(** stable_sort.h:21-190, in order. *)
Definition stable_sort_overloads : list overload :=
  [ Overload [(0, Forwarding)] (fun _ => Yes) Default;
    Overload [(0, Forwarding); (1, ByValue)] (fun t => neg (is_sorter (t 0) (t 1))) Default;
    Overload [(0, Forwarding); (1, ByValue); (2, ByValue)]
      (fun t => both (neg (is_comparison_sorter (t 0) (t 1) (t 2))) (neg (is_projection_sorter (t 0) (t 1) (t 2)))) Default;
    Overload [(0, ByValue); (0, ByValue)] (fun _ => Yes) Default;
    Overload [(0, ByValue); (0, ByValue); (1, ByValue)] (fun t => neg (is_sorter_iterator (t 1) (t 0))) Default;
    Overload [(0, ByValue); (0, ByValue); (1, ByValue); (2, ByValue)]
      (fun t => both (neg (is_comparison_sorter_iterator (t 1) (t 0) (t 2))) (neg (is_projection_sorter_iterator (t 1) (t 0) (t 2)))) Default;
    Overload [(0, ConstReference); (1, Forwarding)] (fun t => is_sorter (t 0) (t 1)) Given;
    Overload [(0, ConstReference); (1, Forwarding); (2, ByValue)]
      (fun t => either (is_comparison_sorter (t 0) (t 1) (t 2)) (is_projection_sorter (t 0) (t 1) (t 2))) Given;
    Overload [(0, ConstReference); (1, Forwarding); (2, ByValue); (3, ByValue)] (fun _ => Yes) Given;
    Overload [(0, ConstReference); (1, ByValue); (1, ByValue)] (fun t => is_sorter_iterator (t 0) (t 1)) Given;
    Overload [(0, ConstReference); (1, ByValue); (1, ByValue); (2, ByValue)]
      (fun t => either (is_comparison_sorter_iterator (t 0) (t 1) (t 2)) (is_projection_sorter_iterator (t 0) (t 1) (t 2))) Given;
    Overload [(0, ConstReference); (1, ByValue); (1, ByValue); (2, ByValue); (3, ByValue)] (fun _ => Yes) Given ].

(** The body of the overload that is selected: an error if the sorter does not accept the arguments. *)
Definition instantiate (b : body) (args : list type) : result :=
  match b, args with
  | Default, _ =>
    match sorter_call args with Some (_, fs) => if default_accepts fs then Runs DefaultSorter args else CompileError | None => CompileError end
  | Given, Sorter :: args =>
    match sorter_call args with Some (w, fs) => if accepts w fs then Runs GivenSorter args else CompileError | None => CompileError end
  | Given, _ => CompileError
  end.

Definition call (overloads : list overload) (args : list argument) : result :=
  if existsb (fun o => answer_eqb (viable args o) Error) overloads then CompileError
  else match best args (filter (fun o => answer_eqb (viable args o) Yes) overloads) [] with
       | Some o => instantiate (does o) (map fst args)
       | None => CompileError
       end.

(** sort.h; stable_sort.h, where the default sorter is stable_t<default_sorter> and the given one stable_t of it. *)
Definition sort : list argument -> result := call sort_overloads.
Definition stable_sort : list argument -> result := call stable_sort_overloads.
End Call.
