(** The function objects made by flip, not_fn, make_projection_compare, as_projection and as_comparison: comparators/{flip,not_fn,projection_compare}.h,
    utility/{functional,as_function}.h, detail/raw_checkers.h.

    Unlike Model/Comparators.v, this tells pointers to members from objects that can be called, and calls with one argument from calls with two.
    Simplifications: all the values are of one type; constness and value categories are left out (the four overloads of each call operator do the same). *)
From Coq Require Import List Bool.

Section Model.
(** The values; [truth] is the conversion to bool and [of_bool] the one from it. *)
Context {V : Type} (truth : V -> bool) (of_bool : bool -> V).

(** An object with a call operator for one argument, for two, for both; a pointer to a data member or to a member function (called with the object
    alone, or with one more argument); then the classes of the library.  [transparent]: the member type is_transparent. *)
Inductive callable :=
| Object (one : option (V -> V)) (two : option (V -> V -> V)) (transparent : bool)
| Member (one : option (V -> V)) (two : option (V -> V -> V))
| Identity
| AsProjection (f : callable)
| AsComparison (f : callable)
| FlipT (f : callable)
| NotFnT (f : callable)
| ProjectionCompare (compare projection : callable).

(** What a call with one argument and one with two do; None: ill-formed.  [through]: the function goes through as_function
    (utility/as_function.h:35-58), which makes a pointer to member callable (std::mem_fn); otherwise it is called directly.
    functional.h:116-127 (identity), 180-236 (as_projection_fn), 238-293 (as_comparison_fn), flip.h:53-84, not_fn.h:52-83,
    projection_compare.h:39-101. *)
Fixpoint operators (through : bool) (f : callable) : option (V -> V) * option (V -> V -> V) :=
  match f with
  | Object one two _ => (one, two)
  | Member one two => if through then (one, two) else (None, None)
  | Identity => (Some (fun x => x), None)
  | AsProjection f => (fst (operators true f), None)
  | AsComparison f => (None, snd (operators true f))
  | FlipT f => (None, option_map (fun g x y => g y x) (snd (operators true f)))
  | NotFnT f => (option_map (fun g x => of_bool (negb (truth (g x)))) (fst (operators true f)),
                 option_map (fun g x y => of_bool (negb (truth (g x y)))) (snd (operators true f)))
  | ProjectionCompare c p =>
      (None, match snd (operators true c), fst (operators true p) with
             | Some g, Some h => Some (fun x y => g (h x) (h y))
             | _, _ => None
             end)
  end.
Definition direct1 (f : callable) (x : V) : option V := option_map (fun g => g x) (fst (operators false f)).
Definition direct2 (f : callable) (x y : V) : option V := option_map (fun g => g x y) (snd (operators false f)).
Definition invoke1 (f : callable) (x : V) : option V := option_map (fun g => g x) (fst (operators true f)).
Definition invoke2 (f : callable) (x y : V) : option V := option_map (fun g => g x y) (snd (operators true f)).

(** detail/raw_checkers.h:91-118; functional.h:126, 183, 240; flip.h:30, not_fn.h:29, projection_compare.h:25.  A pointer to member has no member type. *)
Fixpoint is_transparent (f : callable) : bool :=
  match f with
  | Object _ _ t => t
  | Member _ _ => false
  | Identity => true
  | AsProjection f | AsComparison f | FlipT f | NotFnT f => is_transparent f
  | ProjectionCompare c p => is_transparent c && is_transparent p
  end.

(** functional.h:295-313 *)
Definition as_projection (f : callable) : callable :=
  match f with AsProjection _ => f | _ => AsProjection f end.
(** functional.h:315-333 *)
Definition as_comparison (f : callable) : callable :=
  match f with AsComparison _ => f | _ => AsComparison f end.

(** flip.h:102-172 and 181-186 *)
Fixpoint flip (f : callable) : callable :=
  match f with
  | FlipT f => f
  | NotFnT (FlipT f) => NotFnT f
  | ProjectionCompare c p => ProjectionCompare (flip c) p
  | _ => FlipT f
  end.

(** not_fn.h:101-171 and 176-181 *)
Fixpoint not_fn (f : callable) : callable :=
  match f with
  | NotFnT f => f
  | FlipT (NotFnT f) => FlipT f
  | ProjectionCompare c p => ProjectionCompare (not_fn c) p
  | _ => NotFnT f
  end.

(** projection_compare.h:126-188 *)
Definition make_projection_compare (c p : callable) : callable :=
  match p with Identity => c | _ => ProjectionCompare c p end.
End Model.
Arguments callable : clear implicits.
