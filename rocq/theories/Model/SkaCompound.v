(** ska_sort on pairs, tuples and random-access sequences. *)
From Coq Require Import List Arith NArith ZArith Bool.
From Verif Require Import Lang.Mem Model.Basic Model.Quick Model.Pdq Model.Indirect Model.Comparators Model.Counting Model.Ska Model.Ieee.
Import ListNotations.
Local Open Scope nat_scope.

(** The types that have one sub-key: the integral types, float and double. *)
Inductive scalar := Integral (t : key_type) | Floating (f : format).
Definition scalar_value (s : scalar) : Type := match s with Integral _ => Z | Floating f => number f end.
(** The built-in operator<. *)
Definition scalar_less (s : scalar) : scalar_value s -> scalar_value s -> bool := match s with Integral _ => Z.ltb | Floating f => @less f end.
(** The built-in operator==; the numbers are not NaNs. *)
Definition scalar_equal (s : scalar) (x y : scalar_value s) : bool := negb (scalar_less s x y) && negb (scalar_less s y x).
(** detail/ska_sort.h:40-131. *)
Definition scalar_key (s : scalar) : scalar_value s -> N := match s with Integral t => to_unsigned_or_bool t | Floating f => @float_to_unsigned f end.
(** sizeof, 0 for bool. *)
Definition scalar_bytes (s : scalar) : nat := match s with Integral t => key_bytes t | Floating f => Z.to_nat (width f / 8) end.

(** The types of is_ska_sortable (detail/ska_sort.h:932-992), except the pointers: a scalar; std::pair<a, b>; a type with operator[] and size().  The
    type std::tuple<a, b, c> is [Pair a (Pair b (Pair c Nil))]: the first element and the tuple of the others. *)
Inductive compound := Scalar (s : scalar) | Pair (a b : compound) | Nil | Sequence (a : compound).
Definition Tuple : list compound -> compound := fold_right Pair Nil.
Fixpoint value (t : compound) : Type :=
  match t with Scalar s => scalar_value s | Pair a b => (value a * value b)%type | Nil => unit | Sequence a => list (value a) end.

(** operator< of the standard library (std::less<> calls it). *)
Fixpoint value_less (t : compound) : value t -> value t -> bool :=
  match t with
  | Scalar s => scalar_less s
  | Pair a b => fun x y => value_less a (fst x) (fst y) || (negb (value_less a (fst y) (fst x)) && value_less b (snd x) (snd y))
  | Nil => fun _ _ => false
  | Sequence a => lexicographical_compare (value_less a)
  end.
Fixpoint sequence_equal {X} (equal : X -> X -> bool) (x y : list X) : bool :=
  match x, y with [], [] => true | a :: x, b :: y => equal a b && sequence_equal equal x y | _, _ => false end.
(** operator== of the standard library. *)
Fixpoint value_equal (t : compound) : value t -> value t -> bool :=
  match t with
  | Scalar s => scalar_equal s
  | Pair a b => fun x y => value_equal a (fst x) (fst y) && value_equal b (snd x) (snd y)
  | Nil => fun _ _ => true
  | Sequence a => sequence_equal (value_equal a)
  end.

(** detail/ska_sort.h:711-720 and 746-748: whether element_key gives equal results for two elements of a sequence.  ElementSubKey::base is SubKey<a>, the
    first sub-key of the type [a] of the elements: for a pair or a tuple, that of its first element (lines 339-357, 389-421); for a sequence, the sequence
    itself (lines 457-470). *)
Fixpoint element_key_equal (t : compound) : value t -> value t -> bool :=
  match t with
  | Scalar s => fun x y => N.eqb (scalar_key s x) (scalar_key s y)
  | Pair a _ => fun x y => element_key_equal a (fst x) (fst y)
  | Nil => fun _ _ => true
  | Sequence a => value_equal (Sequence a)
  end.

(** A sub-key: its type and how to get it from a value.  [None]: an element of a sequence is accessed out of bounds. *)
Definition getter (T : Type) (t : compound) : Type := T -> option (value t).
Definition get_first {T a b} (g : getter T (Pair a b)) : getter T a := fun v => option_map fst (g v).
Definition get_second {T a b} (g : getter T (Pair a b)) : getter T b := fun v => option_map snd (g v).
(** detail/ska_sort.h:439-455: [ListElementSubKey]. *)
Definition get_element {T a} (g : getter T (Sequence a)) (current_index : nat) : getter T a :=
  fun v => match g v with Some l => nth_error l current_index | None => None end.
Definition subkey (T : Type) : Type := { t : compound & getter T t }.

(** detail/ska_sort.h:300-421, 457-475: the successive sub-keys (the types [next]), up to SubKey<void>. *)
Fixpoint subkeys {T} (t : compound) : getter T t -> list (subkey T) :=
  match t with
  | Scalar s => fun g => [existT (getter T) (Scalar s) g]
  | Pair a b => fun g => subkeys a (get_first g) ++ subkeys b (get_second g)
  | Nil => fun _ => []
  | Sequence a => fun g => [existT (getter T) (Sequence a) g]
  end.

Section Model.
(** [T] is the type of the projected elements, [less] is std::less<> on it. *)
Context {A T : Type} (less : T -> T -> bool) (proj : A -> T) (branchless : bool).
Variables (std_sort_threshold american_flag_sort_threshold : nat).
Local Notation std_sort_if_less_than_threshold := (std_sort_if_less_than_threshold less proj branchless std_sort_threshold).

(** The sub-key of all the elements of a range is accessed before or while they are sorted by it: if one of the accesses is out of bounds, the behaviour is
    undefined.  The accesses are checked here, before the sort, rather than each time. *)
Fixpoint check {t} (g : getter T t) (first n : nat) : M A unit :=
  match n with
  | 0 => ret tt
  | S n => let* x := get first in match g (proj x) with Some _ => check g (S first) n | None => ub end
  end.
Definition sequence_of {a} (g : getter T (Sequence a)) (x : A) : list (value a) := match g (proj x) with Some l => l | None => [] end.

(** detail/ska_sort.h:719-724. *)
Definition match_from (a : compound) (largest_match_list current_list : list (value a)) (start_index largest_match : nat) : M A nat :=
  loop (S (largest_match - start_index)) (fun i =>
    if i <? largest_match then
      let* x := rd largest_match_list i in
      let* y := rd current_list i in
      if negb (element_key_equal a x y) then ret (inr i) else ret (inl (S i))
    else ret (inr largest_match)) (S start_index).

(** detail/ska_sort.h:695-727. *)
Definition common_prefix {a} (g : getter T (Sequence a)) (first last start_index : nat) : M A nat :=
  let* x := get first in
  let largest_match_list := sequence_of g x in
  if length largest_match_list =? start_index then ret start_index else
  loop (S (last - first)) (fun '(it, largest_match) =>
    if it =? last then ret (inr largest_match) else
    let* y := get it in
    let current_list := sequence_of g y in
    let current_size := length current_list in
    let smaller := current_size <? largest_match in
    let largest_match := if smaller then current_size else largest_match in
    if smaller && (largest_match =? start_index) then ret (inr start_index) else
    let* u := rd largest_match_list start_index in
    let* v := rd current_list start_index in
    if negb (element_key_equal a u v) then ret (inr start_index) else
    let* largest_match := match_from a largest_match_list current_list start_index largest_match in
    ret (inl (S it, largest_match))) (S first, length largest_match_list).

Section Sequences.
(** The sort by the (first) sub-key of the elements of the sequences. *)
Context {a : compound} (element_sort : getter T a -> option (nat -> nat -> nat -> M A unit) -> nat -> nat -> nat -> M A unit).
Context (g : getter T (Sequence a)) (next_sort : option (nat -> nat -> nat -> M A unit)).

(** detail/ska_sort.h:729-784: [ListInplaceSorter], the first two functions; ListSortData holds [current_index], the recursion limit and [next_sort].  The
    object of type ListSortData that sort_from_recursion is given is not modified until it has been copied. *)
Fixpoint sequence_sort (recursion_limit current_index first last : nat) : M A unit :=
  match recursion_limit with
  | 0 => ub
  | S limit =>
    let* current_index := common_prefix g first last current_index in
    let* end_of_shorter_ones := partition_bidirectional (fun i => let* x := get i in ret (length (sequence_of g x) <=? current_index)) first last in
    match next_sort with
    | None => ret tt
    | Some sort =>
      let num_shorter_ones := end_of_shorter_ones - first in
      let* done := std_sort_if_less_than_threshold first end_of_shorter_ones num_shorter_ones in
      if (done : bool) then ret tt else sort first end_of_shorter_ones num_shorter_ones
    end ;;
    let num_elements := last - end_of_shorter_ones in
    let* done := std_sort_if_less_than_threshold end_of_shorter_ones last num_elements in
    if (done : bool) then ret tt else
    element_sort (get_element g current_index)
      (Some (fun first last _ => if limit =? 0 then pdqsort less proj true branchless first last else sequence_sort limit (S current_index) first last))
      end_of_shorter_ones last num_elements
  end.
End Sequences.

(** InplaceSorter (detail/ska_sort.h:500-514, 786-876) on the first sub-key of the type.  There is none for the empty tuple: the code does not compile. *)
Fixpoint inplace_sort (t : compound) : getter T t -> option (nat -> nat -> nat -> M A unit) -> nat -> nat -> nat -> M A unit :=
  match t with
  | Scalar s => fun g next_sort first last num_elements =>
    let sub_key v := match g v with Some k => scalar_key s k | None => 0%N end in
    check g first (last - first) ;;
    if scalar_bytes s =? 0 then bool_inplace_sort proj sub_key next_sort first last
    else unsigned_inplace_sort less proj sub_key branchless std_sort_threshold american_flag_sort_threshold next_sort (scalar_bytes s) first last num_elements
  | Pair a _ => fun g => inplace_sort a (get_first g)
  | Nil => fun _ _ _ _ _ => ub
  | Sequence a => fun g next_sort first last _ => check g first (last - first) ;; sequence_sort (inplace_sort a) g next_sort 16 0 first last
  end.

(** detail/ska_sort.h:878-911: [SortStarter]. *)
Fixpoint sort_starter (ks : list (subkey T)) (first last num_elements : nat) : M A unit :=
  match ks with
  | [] => ret tt
  | k :: ks =>
    let* done := std_sort_if_less_than_threshold first last num_elements in
    if (done : bool) then ret tt else
    inplace_sort (projT1 k) (projT2 k) (match ks with [] => None | _ => Some (sort_starter ks) end) first last num_elements
  end.
End Model.

(** detail/ska_sort.h:913-928, sorters/ska_sorter.h:29-60.  The projection returns a reference. *)
Definition compound_ska_sorter {A} (t : compound) (proj : A -> value t) (branchless : bool) : range_prog A := fun first last =>
  sort_starter (value_less t) proj branchless 128 1024 (subkeys t Some) first last (last - first).
