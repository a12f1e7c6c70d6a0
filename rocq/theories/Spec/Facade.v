(** What a call of a sorter asks for. *)
From Coq Require Import List Bool.
From Verif Require Import Spec.Order Model.Facade.
Import ListNotations.

Definition less_like (f : fn) : bool := match f with Less | RangesLess => true | _ => false end.
Definition identity_like (f : fn) : bool := match f with Identity | StdIdentity => true | _ => false end.

(** The functions that a user can pass: std::ranges::less and std::identity exist since C++20, and projection_compare is a comparison like
    any other. *)
Definition from_user (cpp20 : bool) (f : fn) : bool := match f with RangesLess | StdIdentity => cpp20 | Fused _ _ => false | _ => true end.
(** No function, a comparison, a projection, or a comparison and a projection. *)
Definition valid_call (cpp20 : bool) (args : list fn) : bool :=
  forallb (from_user cpp20) args &&
  match args with
  | [] => true
  | [f] => is_comparison f || is_projection f
  | [c; p] => is_comparison c && is_projection p
  | _ => false
  end.

(** The order that a call asks for: elements of [A], projections to [T], the orders of std::less<> and of the comparison on both. *)
Section Order.
Context {A T : Type} (less_a cmp_a : A -> A -> bool) (less_t cmp_t : T -> T -> bool) (prj : A -> T).
Definition order_of_pair (c p : fn) : option (A -> A -> bool) :=
  if identity_like p then if less_like c then Some less_a else match c with Cmp => Some cmp_a | _ => None end
  else match p with
       | Prj => if less_like c then Some (fun x y => less_t (prj x) (prj y)) else match c with Cmp => Some (fun x y => cmp_t (prj x) (prj y)) | _ => None end
       | _ => None
       end.
Definition order_of (args : list fn) : option (A -> A -> bool) :=
  match args with
  | [] => Some less_a
  | [Fused c p] => order_of_pair c p
  | [f] => if is_comparison f then order_of_pair f Identity else order_of_pair Less f
  | [c; p] => order_of_pair c p
  | _ => None
  end.
End Order.

(** The calls of a sorter implementation that can stand for a call: the same one; without an std::less<>; without an identity; with an
    std::less<> before the projection; with the comparison and the projection made one comparison. *)
Definition alternatives (args : list fn) : list (list fn) :=
  args ::
  match args with
  | [f] => if is_comparison f then if less_like f then [[]] else []
           else [Less; f] :: [Fused Less f] :: if identity_like f then [[]] else []
  | [c; p] => [Fused c p] :: if less_like c then [p] :: (if identity_like p then [[]] else []) else []
  | _ => []
  end.

(** What a sorter implementation accepts whose only operator() takes two iterators, a comparison and a projection, the last two with default
    arguments or not. *)
Definition single_overload (defaults : bool) (w : form) (args : list fn) : bool :=
  match w, args with
  | Iterators, [] => defaults
  | Iterators, [c] => defaults && is_comparison c
  | Iterators, [c; p] => is_comparison c && is_projection p
  | _, _ => false
  end.
