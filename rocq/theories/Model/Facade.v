(** sorter_facade.h: which overload a call reaches, and what it passes to the sorter implementation.

    Every overload of operator() is an entry of the table [overloads], in the order of the file.  Simplifications: [refined] is left to Model.Refined
    (a refined function computes what the original one does); the elements and the results of the projections can be compared with
    std::less<>; a function is either a comparison or a projection, not both; a pair of iterators is never taken for an iterable with a
    function; the conversions to function pointers and the forwarding constructor are left out. *)
From Coq Require Import List Bool Arith.
Import ListNotations.

(** The types of the function objects: std::less<>, std::ranges::less, another comparison, utility::identity, std::identity, another
    projection, and projection_compare<c, p>. *)
Inductive fn := Less | RangesLess | Cmp | Identity | StdIdentity | Prj | Fused (c p : fn).

Fixpoint fn_eqb (f g : fn) : bool :=
  match f, g with
  | Less, Less | RangesLess, RangesLess | Cmp, Cmp | Identity, Identity | StdIdentity, StdIdentity | Prj, Prj => true
  | Fused c p, Fused c' p' => fn_eqb c c' && fn_eqb p p'
  | _, _ => false
  end.

Definition is_comparison (f : fn) : bool := match f with Less | RangesLess | Cmp | Fused _ _ => true | _ => false end.
Definition is_projection (f : fn) : bool := match f with Identity | StdIdentity | Prj => true | _ => false end.

(** A pair of iterators, or an iterable. *)
Inductive form := Iterators | Iterable.
Definition form_eqb (a b : form) : bool := match a, b with Iterators, Iterators | Iterable, Iterable => true | _, _ => false end.

Section Facade.
(** [invocable w args]: the operator() of the sorter implementation can be called with such a collection and such functions
    (detail::is_invocable).  [cpp20]: __cpp_lib_ranges and CPPSORT_STD_IDENTITY_AVAILABLE. *)
Variables (invocable : form -> list fn -> bool) (cpp20 : bool).

(** sorter_traits.h:79-138; [w] tells has_…_sort_iterator from has_…_sort. *)
Definition has_sort (w : form) : bool := invocable w [].
Definition has_comparison_sort (w : form) (c : fn) : bool := invocable w [c] && is_comparison c.
Definition has_projection_sort (w : form) (p : fn) : bool := invocable w [p] && is_projection p.
Definition has_comparison_projection_sort (w : form) (c p : fn) : bool := invocable w [c; p] && (is_comparison c && is_projection p).

(** What the body of an overload calls: Sorter::operator(), or the operator() of the facade itself. *)
Inductive target := ToSorter (w : form) (args : list fn) | ToFacade (args : list fn).

(** The types of the function parameters: [None] is a template parameter.  [enabled]: the condition of enable_if, given the types of the
    arguments; that the call in decltype is well-formed is checked by [viable]. *)
Record overload := { on : form; params : list (option fn); enabled : list fn -> bool; body : list fn -> target }.

Definition arg1 (args : list fn) : fn := nth 0 args Less.
Definition arg2 (args : list fn) : fn := nth 1 args Identity.
Notation it := Iterators.
Notation rg := Iterable.

(** sorter_facade.h:169-195 *)
Definition non_comparison_overloads : list overload :=
  [ {| on := it; params := []; enabled := fun _ => true; body := fun _ => ToSorter it [] |};
    {| on := rg; params := []; enabled := fun _ => has_sort rg; body := fun _ => ToSorter rg [] |};
    {| on := rg; params := []; enabled := fun _ => negb (has_sort rg); body := fun _ => ToSorter it [] |} ].

(** sorter_facade.h:199-250 *)
Definition comparison_overloads : list overload :=
  [ {| on := it; params := [None]; enabled := fun a => has_comparison_sort it (arg1 a); body := fun a => ToSorter it [arg1 a] |};
    {| on := rg; params := [None]; enabled := fun a => has_comparison_sort rg (arg1 a); body := fun a => ToSorter rg [arg1 a] |};
    {| on := rg; params := [None]; enabled := fun a => negb (has_comparison_sort rg (arg1 a)) && has_comparison_sort it (arg1 a);
       body := fun a => ToSorter it [arg1 a] |} ].

(** sorter_facade.h:255-414 *)
Definition projection_overloads : list overload :=
  [ {| on := it; params := [None]; enabled := fun a => negb (has_comparison_sort it (arg1 a)) && has_projection_sort it (arg1 a);
       body := fun a => ToSorter it [arg1 a] |};
    {| on := it; params := [None]; enabled := fun a => negb (has_projection_sort it (arg1 a)) && has_comparison_projection_sort it Less (arg1 a);
       body := fun a => ToSorter it [Less; arg1 a] |};
    {| on := rg; params := [None]; enabled := fun a => negb (has_comparison_sort rg (arg1 a)) && has_projection_sort rg (arg1 a);
       body := fun a => ToSorter rg [arg1 a] |};
    {| on := rg; params := [None];
       enabled := fun a => negb (has_comparison_sort rg (arg1 a)) && negb (has_projection_sort rg (arg1 a)) && has_comparison_projection_sort rg Less (arg1 a);
       body := fun a => ToSorter rg [Less; arg1 a] |};
    {| on := rg; params := [None];
       enabled := fun a => negb (has_comparison_sort rg (arg1 a)) && negb (has_comparison_sort it (arg1 a)) && negb (has_projection_sort rg (arg1 a)) &&
                           negb (has_comparison_projection_sort rg Less (arg1 a)) && has_projection_sort it (arg1 a);
       body := fun a => ToSorter it [arg1 a] |};
    {| on := rg; params := [None];
       enabled := fun a => negb (has_projection_sort rg (arg1 a)) && negb (has_comparison_projection_sort rg Less (arg1 a)) &&
                           negb (has_projection_sort it (arg1 a)) && has_comparison_projection_sort it Less (arg1 a);
       body := fun a => ToSorter it [Less; arg1 a] |} ].

(** sorter_facade.h:419-441, and with std::ranges::less 443-467 *)
Definition less_overloads (less : fn) : list overload :=
  [ {| on := it; params := [Some less]; enabled := fun _ => negb (has_comparison_sort it less); body := fun _ => ToSorter it [] |};
    {| on := rg; params := [Some less]; enabled := fun _ => negb (has_comparison_sort it less); body := fun _ => ToFacade [] |} ].

(** sorter_facade.h:472-506, and with std::identity 508-544 *)
Definition identity_overloads (identity : fn) : list overload :=
  [ {| on := it; params := [Some identity];
       enabled := fun _ => negb (has_projection_sort it identity) && negb (has_comparison_projection_sort it Less identity);
       body := fun _ => ToSorter it [] |};
    {| on := rg; params := [Some identity];
       enabled := fun _ => negb (has_projection_sort it identity) && negb (has_comparison_projection_sort it Less identity);
       body := fun _ => ToFacade [] |} ].

(** sorter_facade.h:549-610 *)
Definition fused_overloads : list overload :=
  [ {| on := it; params := [None; None]; enabled := fun a => has_comparison_projection_sort it (arg1 a) (arg2 a); body := fun a => ToSorter it [arg1 a; arg2 a] |};
    {| on := rg; params := [None; None]; enabled := fun a => has_comparison_projection_sort rg (arg1 a) (arg2 a); body := fun a => ToSorter rg [arg1 a; arg2 a] |};
    {| on := rg; params := [None; None];
       enabled := fun a => negb (has_comparison_projection_sort rg (arg1 a) (arg2 a)) && has_comparison_projection_sort it (arg1 a) (arg2 a);
       body := fun a => ToSorter it [arg1 a; arg2 a] |} ].

(** sorter_facade.h:615-643, with std::identity 645-675, with std::ranges::less and std::identity 818-846 *)
Definition less_identity_overloads (less identity : fn) : list overload :=
  [ {| on := it; params := [Some less; Some identity]; enabled := fun _ => negb (has_comparison_projection_sort it less identity); body := fun _ => ToSorter it [] |};
    {| on := rg; params := [Some less; Some identity]; enabled := fun _ => negb (has_comparison_projection_sort it less identity); body := fun _ => ToFacade [] |} ].

(** sorter_facade.h:677-815, and with std::ranges::less 848-986 *)
Definition less_projection_overloads (less : fn) : list overload :=
  [ {| on := it; params := [Some less; None]; enabled := fun a => has_comparison_projection_sort it less (arg2 a); body := fun a => ToSorter it [less; arg2 a] |};
    {| on := it; params := [Some less; None];
       enabled := fun a => negb (has_comparison_projection_sort it less (arg2 a)) && has_projection_sort it (arg2 a);
       body := fun a => ToSorter it [arg2 a] |};
    {| on := rg; params := [Some less; None]; enabled := fun a => has_comparison_projection_sort rg less (arg2 a); body := fun a => ToSorter rg [less; arg2 a] |};
    {| on := rg; params := [Some less; None];
       enabled := fun a => negb (has_comparison_projection_sort rg less (arg2 a)) && has_comparison_projection_sort it less (arg2 a);
       body := fun a => ToSorter it [less; arg2 a] |};
    {| on := rg; params := [Some less; None];
       enabled := fun a => negb (has_comparison_projection_sort rg less (arg2 a)) && negb (has_comparison_projection_sort it less (arg2 a)) &&
                           has_projection_sort rg (arg2 a);
       body := fun a => ToSorter rg [arg2 a] |};
    {| on := rg; params := [Some less; None];
       enabled := fun a => negb (has_comparison_projection_sort rg less (arg2 a)) && negb (has_comparison_projection_sort it less (arg2 a)) &&
                           negb (has_projection_sort rg (arg2 a)) && has_projection_sort it (arg2 a);
       body := fun a => ToSorter it [arg2 a] |} ].

(** sorter_facade.h:992-1174 *)
Definition embedding_overloads : list overload :=
  [ {| on := it; params := [None];
       enabled := fun a => negb (has_projection_sort it (arg1 a)) && negb (has_comparison_projection_sort it Less (arg1 a)) &&
                           (has_comparison_sort it (Fused Less (arg1 a)) && is_projection (arg1 a));
       body := fun a => ToSorter it [Fused Less (arg1 a)] |};
    {| on := it; params := [None; None];
       enabled := fun a => negb (has_comparison_projection_sort it (arg1 a) (arg2 a)) &&
                           (has_comparison_sort it (Fused (arg1 a) (arg2 a)) && (is_comparison (arg1 a) && is_projection (arg2 a)));
       body := fun a => ToSorter it [Fused (arg1 a) (arg2 a)] |};
    {| on := rg; params := [None];
       enabled := fun a => negb (has_projection_sort it (arg1 a)) && negb (has_comparison_projection_sort it Less (arg1 a)) &&
                           (has_comparison_sort rg (Fused Less (arg1 a)) && is_projection (arg1 a));
       body := fun a => ToSorter rg [Fused Less (arg1 a)] |};
    {| on := rg; params := [None];
       enabled := fun a => negb (has_projection_sort it (arg1 a)) && negb (has_comparison_projection_sort it Less (arg1 a)) &&
                           negb (has_comparison_sort rg (Fused Less (arg1 a)) && is_projection (arg1 a)) &&
                           (has_comparison_sort it (Fused Less (arg1 a)) && is_projection (arg1 a));
       body := fun a => ToSorter it [Fused Less (arg1 a)] |};
    {| on := rg; params := [None; None];
       enabled := fun a => negb (has_comparison_projection_sort it (arg1 a) (arg2 a)) &&
                           (has_comparison_sort rg (Fused (arg1 a) (arg2 a)) && (is_comparison (arg1 a) && is_projection (arg2 a)));
       body := fun a => ToSorter rg [Fused (arg1 a) (arg2 a)] |};
    {| on := rg; params := [None; None];
       enabled := fun a => negb (has_comparison_projection_sort it (arg1 a) (arg2 a)) &&
                           negb (has_comparison_sort rg (Fused (arg1 a) (arg2 a)) && (is_comparison (arg1 a) && is_projection (arg2 a))) &&
                           (has_comparison_sort it (Fused (arg1 a) (arg2 a)) && (is_comparison (arg1 a) && is_projection (arg2 a)));
       body := fun a => ToSorter it [Fused (arg1 a) (arg2 a)] |} ].

(** sorter_facade.h:166-1174 *)
Definition overloads : list overload :=
  non_comparison_overloads ++ comparison_overloads ++ projection_overloads ++
  less_overloads Less ++ (if cpp20 then less_overloads RangesLess else []) ++
  identity_overloads Identity ++ (if cpp20 then identity_overloads StdIdentity else []) ++
  fused_overloads ++
  less_identity_overloads Less Identity ++ (if cpp20 then less_identity_overloads Less StdIdentity else []) ++
  less_projection_overloads Less ++
  (if cpp20 then less_identity_overloads RangesLess StdIdentity ++ less_projection_overloads RangesLess else []) ++
  embedding_overloads.

(** * Overload resolution ([over.match], [temp.func.order])

    An overload is viable if its parameters accept the arguments and the substitution does not fail.  One overload is more specialized than
    another if it names the type of every parameter whose type the other one names, and of one more. *)
Fixpoint matches (ps : list (option fn)) (args : list fn) : bool :=
  match ps, args with
  | [], [] => true
  | p :: ps, f :: args => match p with Some g => fn_eqb f g | None => true end && matches ps args
  | _, _ => false
  end.
Definition named (p : option fn) : bool := match p with Some _ => true | None => false end.
Definition more_specialized (p q : list (option fn)) : bool :=
  forallb (fun '(a, b) => implb (named b) (named a)) (combine p q) && existsb (fun '(a, b) => named a && negb (named b)) (combine p q).

Inductive resolution := NotViable | Ambiguous | Chosen (t : target).
Definition best (viable : list (list (option fn) * target)) : resolution :=
  match viable with
  | [] => NotViable
  | _ =>
    match filter (fun o => length (filter (fun o' => more_specialized (fst o) (fst o')) viable) =? length viable - 1) viable with
    | [o] => Chosen (snd o)
    | _ => Ambiguous
    end
  end.
Definition candidates (well_formed : target -> bool) (w : form) (args : list fn) : list (list (option fn) * target) :=
  map (fun o => (params o, body o args))
    (filter (fun o => form_eqb (on o) w && matches (params o) args && (enabled o args && well_formed (body o args))) overloads).

(** The calls to the facade itself are calls with an iterable and no function. *)
Definition calls_sorter (t : target) : bool := match t with ToSorter w args => invocable w args | ToFacade _ => false end.
Definition resolve_iterable : resolution := best (candidates calls_sorter Iterable []).
Definition well_formed (t : target) : bool :=
  match t with
  | ToSorter w args => invocable w args
  | ToFacade _ => match resolve_iterable with Chosen _ => true | _ => false end
  end.

(** The call of the sorter implementation that a call of the facade makes. *)
Inductive outcome := NotCallable | AmbiguousCall | Calls (w : form) (args : list fn).
Definition outcome_of (r : resolution) (facade : outcome) : outcome :=
  match r with
  | NotViable => NotCallable
  | Ambiguous => AmbiguousCall
  | Chosen (ToSorter w args) => Calls w args
  | Chosen (ToFacade _) => facade
  end.
Definition call (w : form) (args : list fn) : outcome :=
  outcome_of (best (candidates well_formed w args)) (outcome_of resolve_iterable NotCallable).
End Facade.
