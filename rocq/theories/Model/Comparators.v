(** Comparators. *)
From Coq Require Import List Arith ZArith QArith Bool.
Import ListNotations.
Local Open Scope nat_scope.

(** * Function objects (comparators/flip.h, not_fn.h, projection_compare.h)

    [Fun f] is any other function object. *)
Inductive fobj : Type -> Type :=
| Fun {T : Type} (f : T -> T -> bool) : fobj T
| FlipT {T : Type} (f : fobj T) : fobj T
| NotT {T : Type} (f : fobj T) : fobj T
| ProjC {A T : Type} (f : fobj T) (p : A -> T) : fobj A.

(** The call operators: flip.h:54-84, not_fn.h:53-83 (binary calls), projection_compare.h:39-101. *)
Fixpoint call {T : Type} (f : fobj T) : T -> T -> bool :=
  match f with
  | Fun f => f
  | FlipT f => fun x y => call f y x
  | NotT f => fun x y => negb (call f x y)
  | ProjC f p => fun x y => call f (p x) (p y)
  end.

(** flip.h:102-172 (the specialisations of flip_impl) through lines 181-186. *)
Fixpoint flip {T : Type} (f : fobj T) : fobj T :=
  match f with
  | FlipT f => f
  | NotT g => match g in fobj T return fobj T -> fobj T with
              | FlipT h => fun _ => NotT h
              | _ => fun self => FlipT self
              end (NotT g)
  | ProjC f p => ProjC (flip f) p
  | Fun f => FlipT (Fun f)
  end.

(** not_fn.h:101-171 through lines 176-181. *)
Fixpoint not_fn {T : Type} (f : fobj T) : fobj T :=
  match f with
  | NotT f => f
  | FlipT g => match g in fobj T return fobj T -> fobj T with
               | NotT h => fun _ => FlipT h
               | _ => fun self => NotT self
               end (FlipT g)
  | ProjC f p => ProjC (not_fn f) p
  | Fun f => NotT (Fun f)
  end.

(** A projection passed to make_projection_compare: utility::identity or another function object. *)
Inductive projection : Type -> Type -> Type :=
| Identity {T : Type} : projection T T
| Proj {A T : Type} (p : A -> T) : projection A T.
Definition project {A T : Type} (p : projection A T) : A -> T :=
  match p with Identity => fun x => x | Proj p => p end.
(** projection_compare.h:126-157 and make_projection_compare. *)
Definition make_projection_compare {A T : Type} (f : fobj T) (p : projection A T) : fobj A :=
  match p in projection A T return fobj T -> fobj A with
  | Identity => fun f => f
  | Proj p => fun f => ProjC f p
  end f.

(** * Floating point

    A datum is a NaN with a sign and a payload, a signed infinity, a signed zero, or a
    non-zero finite number [(-1)^neg * m * 2^e].  Every value of a binary floating point type is one of those. *)
Inductive fp :=
| Nan (neg : bool) (payload : N)
| Infinite (neg : bool)
| Zero (neg : bool)
| Finite (neg : bool) (m : positive) (e : Z).

Definition isfinite (x : fp) : bool :=
  match x with Zero _ | Finite _ _ _ => true | _ => false end.
Definition isnan (x : fp) : bool := match x with Nan _ _ => true | _ => false end.
Definition signbit (x : fp) : bool :=
  match x with Nan s _ | Infinite s | Zero s | Finite s _ _ => s end.

(** The number represented by a finite datum. *)
Definition fp_value (x : fp) : Q :=
  match x with
  | Finite neg m e => inject_Z (if neg then Zneg m else Zpos m) * (2 # 1) ^ e
  | _ => 0
  end%Q.

(** The built-in operator<: false as soon as one operand is a NaN. *)
Definition fp_lt (x y : fp) : bool :=
  match x, y with
  | Nan _ _, _ | _, Nan _ _ => false
  | Infinite s, Infinite s' => s && negb s'
  | Infinite s, _ => s
  | _, Infinite s' => negb s'
  | _, _ => negb (Qle_bool (fp_value y) (fp_value x))
  end.
Definition fp_is_zero (x : fp) : bool := match x with Zero _ => true | _ => false end.

(** detail/floating_point_weight.h:24-47. *)
Definition weak_weight (x : fp) : Z :=
  let res := if signbit x then (-1)%Z else 1%Z in
  match x with
  | Nan _ _ => (res * 2)%Z
  | Infinite _ => res
  | _ => 0%Z
  end.
(** detail/floating_point_weight.h:49-77. *)
Definition total_weight (x : fp) : Z :=
  let res := if signbit x then (-1)%Z else 1%Z in
  match x with
  | Nan _ _ => (res * 2)%Z
  | Infinite _ => res
  | _ => 0%Z
  end.

(** comparators/total_less.h:36-50. *)
Definition total_less (lhs rhs : fp) : bool :=
  if isfinite lhs && isfinite rhs then
    if fp_is_zero lhs && fp_is_zero rhs then signbit lhs && negb (signbit rhs)
    else fp_lt lhs rhs
  else Z.ltb (total_weight lhs) (total_weight rhs).

(** comparators/total_greater.h:36-50. *)
Definition total_greater (lhs rhs : fp) : bool :=
  if isfinite lhs && isfinite rhs then
    if fp_is_zero lhs && fp_is_zero rhs then signbit rhs && negb (signbit lhs)
    else fp_lt rhs lhs
  else Z.ltb (total_weight rhs) (total_weight lhs).

(** comparators/weak_less.h:27-38. *)
Definition weak_less (lhs rhs : fp) : bool :=
  if isfinite lhs && isfinite rhs then fp_lt lhs rhs
  else Z.ltb (weak_weight lhs) (weak_weight rhs).

(** comparators/weak_greater.h:27-38. *)
Definition weak_greater (lhs rhs : fp) : bool :=
  if isfinite lhs && isfinite rhs then fp_lt rhs lhs
  else Z.ltb (weak_weight rhs) (weak_weight lhs).

(** comparators/partial_less.h:25-30. *)
Definition partial_less (lhs rhs : fp) : bool := fp_lt lhs rhs.
(** comparators/partial_greater.h:25-30. *)
Definition partial_greater (lhs rhs : fp) : bool := fp_lt rhs lhs.

(** * Strings

    A character is its value (a [nat]: bytes, in the range where std::isdigit is defined).  An iterator
    into a string is the rest of the string; reading at the end is [PastEnd] (undefined behaviour). *)
Inductive nres := Answer (b : bool) | PastEnd | OutOfFuel.

Definition isdigit (c : nat) : bool := (48 <=? c) && (c <=? 57).

(** natural_less.h:31-34 (and 35-38): skip the digits; called on a non-empty rest. *)
Fixpoint skip_digits (s : list nat) : list nat :=
  match s with
  | [] => []
  | c :: t => if negb (isdigit c) then s else skip_digits t
  end.

(** natural_less.h:42-45 (and 46-49): skip the zeros of the [n] characters before the end of the number. *)
Fixpoint skip_zeros (n : nat) (s : list nat) : list nat :=
  match n, s with
  | S n, c :: t => if negb (c =? 48) then s else skip_zeros n t
  | _, _ => s
  end.

(** natural_less.h:62-68: [inl r] returns [r] from the function, [inr] goes on after the loop. *)
Fixpoint compare_rest (s1 s2 : list nat) : nres + list nat * list nat :=
  match s1 with
  | [] => inr (s1, s2)
  | c1 :: t1 =>
      match s2 with
      | [] => inl PastEnd
      | c2 :: t2 => if negb (c1 =? c2) then inl (Answer (c1 <? c2)) else compare_rest t1 t2
      end
  end.

(** natural_less.h:71-83, the end of an iteration. *)
Definition natural_step (s1 s2 : list nat) : nres + list nat * list nat :=
  match s1, s2 with
  | [], [] => inl (Answer false)
  | [], _ => inl (Answer true)
  | _, [] => inl (Answer false)
  | c1 :: t1, c2 :: t2 => if negb (c1 =? c2) then inl (Answer (c1 <? c2)) else inr (t1, t2)
  end.

(** natural_less.h:23-87.  Fuel: the length of the first string. *)
Fixpoint natural_less_impl (fuel : nat) (s1 s2 : list nat) : nres :=
  match s1, s2 with
  | _ :: _, _ :: _ =>
      match fuel with
      | 0 => OutOfFuel
      | S fuel =>
          let last1 := skip_digits s1 in
          let last2 := skip_digits s2 in
          let continue s1 s2 :=
            match natural_step s1 s2 with
            | inl r => r
            | inr (s1, s2) => natural_less_impl fuel s1 s2
            end in
          if negb (length last1 =? length s1) && negb (length last2 =? length s2) then
            let s1 := skip_zeros (length s1 - length last1) s1 in
            let s2 := skip_zeros (length s2 - length last2) s2 in
            let size1 := length s1 - length last1 in
            let size2 := length s2 - length last2 in
            if negb (size1 =? size2) then Answer (size1 <? size2) else
            if size1 =? 0 then Answer false else
            match compare_rest s1 s2 with
            | inl r => r
            | inr (s1, s2) => continue s1 s2
            end
          else continue s1 s2
      end
  | [], _ :: _ => Answer true
  | _, [] => Answer false
  end.

(** natural_less.h:89-95. *)
Definition natural_less (s1 s2 : list nat) : nres := natural_less_impl (length s1) s1 s2.

(** std::lexicographical_compare. *)
Fixpoint lexicographical_compare {T : Type} (less : T -> T -> bool) (s1 s2 : list T) : bool :=
  match s1, s2 with
  | _, [] => false
  | [], _ :: _ => true
  | c1 :: t1, c2 :: t2 =>
      if less c1 c2 then true else if less c2 c1 then false else lexicographical_compare less t1 t2
  end.

(** case_insensitive_less.h:26-40; [tolower] is that of the ctype facet of the locale. *)
Definition char_less (tolower : nat -> nat) (lhs rhs : nat) : bool := tolower lhs <? tolower rhs.

(** case_insensitive_less.h:42-52 and 54-60 (and the refined versions, lines 196-205 and 249-261, which call the
    same function with the facet stored). *)
Definition case_insensitive_less (tolower : nat -> nat) (lhs rhs : list nat) : bool :=
  lexicographical_compare (char_less tolower) lhs rhs.
