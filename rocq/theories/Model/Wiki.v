(** wiki_sort. *)
From Coq Require Import List Arith ZArith Bool.
From Verif Require Import Lang.Mem Model.Insertion Model.Rotate Model.Search Model.Merge Model.Spin Model.Counting Model.Bitops Model.Grail.
Import ListNotations.
Local Open Scope nat_scope.

(** detail/wiki_sort.h:42-59: a range, its beginning and its end. *)
Definition range := (nat * nat)%type.
Definition start (r : range) : nat := fst r.
Definition end_ (r : range) : nat := snd r.
Definition len (r : range) : nat := end_ r - start r.

(** detail/wiki_sort.h:521-526. *)
Record pull := { p_from : nat; p_to : nat; p_count : nat; p_range : range }.

(** detail/wiki_sort.h:515-533: the variables of the search for the internal buffers; [s_second]: [pull_index] is 1. *)
Record search := { s_find : nat; s_separately : bool; s_second : bool; s_buffer1 : range; s_buffer2 : range; s_pull0 : pull; s_pull1 : pull }.

(** detail/wiki_sort.h:369-375. *)
Definition net8 : list (nat * nat) :=
  [(0, 1); (2, 3); (4, 5); (6, 7); (0, 2); (1, 3); (4, 6); (5, 7); (1, 2); (5, 6); (0, 4); (3, 7); (1, 5); (2, 6); (1, 4); (3, 6);
   (2, 4); (3, 5); (3, 4)].
(** detail/wiki_sort.h:378-384. *)
Definition net7 : list (nat * nat) :=
  [(1, 2); (3, 4); (5, 6); (0, 2); (3, 5); (4, 6); (0, 1); (4, 5); (2, 6); (0, 4); (1, 5); (0, 3); (2, 5); (1, 3); (2, 4); (2, 3)].
(** detail/wiki_sort.h:387-392. *)
Definition net6 : list (nat * nat) :=
  [(1, 2); (4, 5); (0, 2); (3, 5); (0, 1); (3, 4); (2, 5); (0, 3); (1, 4); (2, 4); (1, 3); (2, 3)].
(** detail/wiki_sort.h:395-400. *)
Definition net5 : list (nat * nat) := [(0, 1); (3, 4); (2, 4); (2, 3); (1, 4); (0, 3); (0, 2); (1, 3); (1, 2)].
(** detail/wiki_sort.h:403-405. *)
Definition net4 : list (nat * nat) := [(0, 1); (2, 3); (0, 2); (1, 3); (1, 2)].
(** detail/wiki_sort.h:368-406. *)
Definition net (n : nat) : list (nat * nat) :=
  if n =? 8 then net8 else if n =? 7 then net7 else if n =? 6 then net6 else if n =? 5 then net5 else if n =? 4 then net4 else [].

Section Model.
Context {A T : Type} (comp : T -> T -> bool) (proj : A -> T).
(** [triv]: is_trivially_move_assignable<value_type>.  [trivial]: is_trivial<value_type>. *)
Context (triv trivial : bool).
(** The values that [pull[0].from], [pull[0].to], [pull[1].from] and [pull[1].to] hold before they are assigned (detail/wiki_sort.h:521-526),
    for a level whose ranges have the given length.  They are default-initialized iterators: the model lets the program compare them. *)
Context (junk : nat -> nat * nat * nat * nat).

Notation rotate := (rotate RandomAccess triv).
Notation half_inplace_merge := (half_inplace_merge false comp proj).

(** The comparison of two elements given by their addresses: comp(proj( *i), proj( *j)). *)
Definition comp_at (i j : nat) : M A bool := let* x := get i in let* y := get j in ret (comp (proj x) (proj y)).

(** detail/wiki_sort.h:63-88.  Dividing by zero is undefined. *)
Definition find_first_forward (first last : nat) (value : T) (unique : nat) : M A nat :=
  let size := last - first in
  if size =? 0 then ret first else
  if unique =? 0 then ub else
  let skip := Nat.max (size / unique) 1 in
  loop (S size) (fun index =>
    let* x := get (index - 1) in
    if comp (proj x) value then
      if last - skip <=? index then let* r := lower_bound comp proj index last value in ret (inr r)
      else ret (inl (index + skip))
    else let* r := lower_bound comp proj (index - skip) index value in ret (inr r)) (first + skip).

(** detail/wiki_sort.h:90-115. *)
Definition find_last_forward (first last : nat) (value : T) (unique : nat) : M A nat :=
  let size := last - first in
  if size =? 0 then ret first else
  if unique =? 0 then ub else
  let skip := Nat.max (size / unique) 1 in
  loop (S size) (fun index =>
    let* x := get (index - 1) in
    if negb (comp value (proj x)) then
      if last - skip <=? index then let* r := upper_bound comp proj index last value in ret (inr r)
      else ret (inl (index + skip))
    else let* r := upper_bound comp proj (index - skip) index value in ret (inr r)) (first + skip).

(** detail/wiki_sort.h:117-141. *)
Definition find_first_backward (first last : nat) (value : T) (unique : nat) : M A nat :=
  let size := last - first in
  if size =? 0 then ret first else
  if unique =? 0 then ub else
  let skip := Nat.max (size / unique) 1 in
  loop (S size) (fun index =>
    let* continue := (if first <? index then let* x := get (index - 1) in ret (negb (comp (proj x) value)) else ret false) in
    if (continue : bool) then
      if index <? first + skip then let* r := lower_bound comp proj first index value in ret (inr r)
      else ret (inl (index - skip))
    else let* r := lower_bound_n comp proj index skip value in ret (inr r)) (last - skip).

(** detail/wiki_sort.h:143-167. *)
Definition find_last_backward (first last : nat) (value : T) (unique : nat) : M A nat :=
  let size := last - first in
  if size =? 0 then ret first else
  if unique =? 0 then ub else
  let skip := Nat.max (size / unique) 1 in
  loop (S size) (fun index =>
    let* continue := (if first <? index then let* x := get (index - 1) in ret (comp value (proj x)) else ret false) in
    if (continue : bool) then
      if index <? first + skip then let* r := upper_bound comp proj first index value in ret (inr r)
      else ret (inl (index - skip))
    else let* r := upper_bound_n comp proj index skip value in ret (inr r)) (last - skip).

(** detail/wiki_sort.h:193-205, the loop; the result is ([A_index], [insert_index]). *)
Definition merge_internal_loop (A_index A_last B_index B_last insert_index : nat) : M A (nat * nat) :=
  loop (S (B_last - insert_index)) (fun '(A_index, B_index, insert_index) =>
    let* c := comp_at B_index A_index in
    if negb c then
      swap insert_index A_index ;;
      if S A_index =? A_last then ret (inr (S A_index, S insert_index)) else ret (inl (S A_index, B_index, S insert_index))
    else
      swap insert_index B_index ;;
      if S B_index =? B_last then ret (inr (A_index, S insert_index)) else ret (inl (A_index, S B_index, S insert_index)))
  (A_index, B_index, insert_index).

(** detail/wiki_sort.h:172-210. *)
Definition merge_internal (first1 last1 first2 last2 buffer : nat) : M A unit :=
  let A_last := buffer + (last1 - first1) in
  let* (A_index, insert_index) :=
    (if negb (first1 =? last1) && negb (first2 =? last2) then merge_internal_loop buffer A_last first2 last2 first1
     else ret (buffer, first1)) in
  let* _ := swap_ranges A_index A_last insert_index in ret tt.

(** detail/wiki_sort.h:213-256. *)
Definition merge_in_place (first middle last : nat) : M A unit :=
  if (first =? middle) || (middle =? last) then ret tt else
  loop (S (last - first)) (fun '(first, middle) =>
    let* x := get first in
    let* mid2 := lower_bound comp proj middle last (proj x) in
    let amount := mid2 - middle in
    rotate first middle mid2 ;;
    if last =? mid2 then ret (inr tt) else
    let middle := mid2 in
    let first := first + amount in
    let* x := get first in
    let* first := upper_bound comp proj first middle (proj x) in
    if first =? middle then ret (inr tt) else ret (inl (first, middle))) (first, middle).

(** detail/wiki_sort.h:289-302: the next range and the new values of [decimal] and [numerator]. *)
Definition next_range (denominator decimal_step numerator_step first : nat) (s : nat * nat) : range * (nat * nat) :=
  let '(decimal, numerator) := s in
  let begin_ := decimal in
  let decimal := decimal + decimal_step in
  let numerator := numerator + numerator_step in
  let '(decimal, numerator) := if denominator <=? numerator then (S decimal, numerator - denominator) else (decimal, numerator) in
  ((first + begin_, first + decimal), (decimal, numerator)).

(** detail/wiki_sort.h:310-321: the new values of [decimal_step] and [numerator_step]. *)
Definition next_level (denominator : nat) (s : nat * nat) : nat * nat :=
  let '(decimal_step, numerator_step) := s in
  let decimal_step := decimal_step + decimal_step in
  let numerator_step := numerator_step + numerator_step in
  if denominator <=? numerator_step then (S decimal_step, numerator_step - denominator) else (decimal_step, numerator_step).

(** detail/wiki_sort.h:359-366; [order] is the array of line 356. *)
Definition do_swap (first x y : nat) (order : list nat) : M A (list nat) :=
  let exchange := swap (first + x) (first + y) ;; ret (upd y (nth x order 0) (upd x (nth y order 0) order)) in
  let* c := comp_at (first + y) (first + x) in
  if c then exchange else
  if nth y order 0 <? nth x order 0 then
    let* c := comp_at (first + x) (first + y) in
    if negb c then exchange else ret order
  else ret order.

(** detail/wiki_sort.h:368-406: the exchanges of a network, one after the other. *)
Fixpoint do_swaps (first : nat) (pairs : list (nat * nat)) (order : list nat) : M A unit :=
  match pairs with
  | [] => ret tt
  | (x, y) :: pairs => let* order := do_swap first x y order in do_swaps first pairs order
  end.

(** detail/wiki_sort.h:354-407: sort ranges of 4 to 8 elements. *)
Definition sort_groups (first size denominator decimal_step numerator_step : nat) : M A unit :=
  loop (S size) (fun s =>
    if size <=? fst s then ret (inr tt) else
    let '(range, s) := next_range denominator decimal_step numerator_step first s in
    do_swaps (start range) (net (len range)) (seq 0 8) ;;
    ret (inl s)) (0, 0).

(** detail/wiki_sort.h:426-433 or 444-451 or 466-473: move two adjacent sorted ranges to [result], merged; [None] in the third case, when they
    are already in order. *)
Definition merge_to (r1 r2 : range) (result : nat) : M A (option unit) :=
  let* c := comp_at (end_ r2 - 1) (start r1) in
  if c then
    let* _ := move_range (start r1) (end_ r1) (result + len r2) in
    let* _ := move_range (start r2) (end_ r2) result in ret (Some tt)
  else
  let* c := comp_at (start r2) (end_ r1 - 1) in
  if c then let* _ := merge_move comp proj (start r1) (end_ r1) (start r2) (end_ r2) result in ret (Some tt)
  else ret None.

(** detail/wiki_sort.h:426-477. *)
Definition merge_four (A1 B1 A2 B2 : range) (cache_begin : nat) : M A unit :=
  let* r := merge_to A1 B1 cache_begin in
  let* skip := match r with
    | Some _ => ret false
    | None =>
        let* c := comp_at (start B2) (end_ A2 - 1) in
        let* skip := (if negb c then let* c := comp_at (start A2) (end_ B1 - 1) in ret (negb c) else ret false) in
        if (skip : bool) then ret true else
        let* _ := move_range (start A1) (end_ B1) cache_begin in ret false
    end in
  if (skip : bool) then ret tt else
  let A1 := (start A1, end_ B1) in
  let* r := merge_to A2 B2 (cache_begin + len A1) in
  (match r with
   | Some _ => ret tt
   | None => let* _ := move_range (start A2) (end_ B2) (cache_begin + len A1) in ret tt
   end) ;;
  let A2 := (start A2, end_ B2) in
  let A3 := (cache_begin, cache_begin + len A1) in
  let B3 := (cache_begin + len A1, cache_begin + (len A1 + len A2)) in
  let* r := merge_to A3 B3 (start A1) in
  match r with
  | Some _ => ret tt
  | None => let* _ := move_range (start A3) (end_ B3) (start A1) in ret tt
  end.

(** detail/wiki_sort.h:419-478. *)
Definition merge_fours (first size denominator decimal_step numerator_step cache_begin : nat) : M A unit :=
  loop (S size) (fun s =>
    if size <=? fst s then ret (inr tt) else
    let '(A1, s) := next_range denominator decimal_step numerator_step first s in
    let '(B1, s) := next_range denominator decimal_step numerator_step first s in
    let '(A2, s) := next_range denominator decimal_step numerator_step first s in
    let '(B2, s) := next_range denominator decimal_step numerator_step first s in
    merge_four A1 B1 A2 B2 cache_begin ;;
    ret (inl s)) (0, 0).

(** detail/move.h:88-98: constructing an object where another one lives ends the lifetime of the latter without a destructor call. *)
Definition construct_over (i : nat) (a : A) : M A unit := fun m =>
  match nth_error m i with
  | Some _ => Ok tt (upd i (Val a) m)
  | None => UB
  end.

(** detail/move.h:80-110, when the destination is the cache: assignments for trivial types, constructions for the others. *)
Definition move_to_cache (first last cache : nat) : M A nat :=
  if trivial then move_range first last cache else
  loop (S (last - first)) (fun '(first, result) =>
    if first =? last then ret (inr result) else
    let* x := take first in
    construct_over result x ;; ret (inl (S first, S result))) (first, cache).

(** detail/memory.h:95-137: the destructors run by the destroyer of the cache. *)
Definition destroy_cache (cache n : nat) : M A unit := if trivial then ret tt else destroy_n cache n.

(** detail/buffered_inplace_merge.h:102-128, when the buffer is the cache, whose elements are already alive. *)
Definition cache_inplace_merge (first middle last len1 len2 cache : nat) : M A unit :=
  if len1 <=? len2 then
    let* ptr := move_to_cache first middle cache in
    half_inplace_merge cache ptr middle last first len1 ;;
    destroy_cache cache (middle - first)
  else
    let* ptr := move_to_cache middle last cache in
    Merge.half_inplace_merge true (Heap.flip_comp comp) proj ptr cache middle first last len2 ;;
    destroy_cache cache (last - middle).

(** detail/wiki_sort.h:490-497. *)
Definition merge_two (RA RB : range) (cache_begin : nat) : M A unit :=
  let* c := comp_at (end_ RB - 1) (start RA) in
  if c then let* _ := rotate (start RA) (end_ RA) (end_ RB) in ret tt else
  let* c := comp_at (start RB) (end_ RA - 1) in
  if c then cache_inplace_merge (start RA) (end_ RA) (end_ RB) (len RA) (len RB) cache_begin else ret tt.

(** detail/wiki_sort.h:485-498. *)
Definition merge_twos (first size denominator decimal_step numerator_step cache_begin : nat) : M A unit :=
  loop (S size) (fun s =>
    if size <=? fst s then ret (inr tt) else
    let '(RA, s) := next_range denominator decimal_step numerator_step first s in
    let '(RB, s) := next_range denominator decimal_step numerator_step first s in
    merge_two RA RB cache_begin ;;
    ret (inl s)) (0, 0).

(** detail/wiki_sort.h:568-573: the number of unique values in A (at most [find]) and the beginning of the last run. *)
Definition count_forward (RA : range) (find : nat) : M A (nat * nat) :=
  loop (S find) (fun '(last, count) =>
    if count <? find then
      let* v := get last in
      let* index := find_last_forward (S last) (end_ RA) (proj v) (find - count) in
      if index =? end_ RA then ret (inr (count, last)) else ret (inl (index, S count))
    else ret (inr (count, last))) (start RA, 1).

(** detail/wiki_sort.h:612-617: the number of unique values in B (at most [find]) and the end of the last run met. *)
Definition count_backward (RB : range) (find : nat) : M A (nat * nat) :=
  loop (S find) (fun '(last, count) =>
    if count <? find then
      let* v := get last in
      let* index := find_first_backward (start RB) last (proj v) (find - count) in
      if index =? start RB then ret (inr (count, last)) else ret (inl (index - 1, S count))
    else ret (inr (count, last))) (end_ RB - 1, 1).

(** detail/wiki_sort.h:559-564. *)
Definition do_pull (RA RB : range) (count index to : nat) (s : search) : search :=
  let p := {| p_from := index; p_to := to; p_count := count; p_range := (start RA, end_ RB) |} in
  {| s_find := s_find s; s_separately := s_separately s; s_second := s_second s; s_buffer1 := s_buffer1 s; s_buffer2 := s_buffer2 s;
     s_pull0 := if s_second s then s_pull0 s else p; s_pull1 := if s_second s then p else s_pull1 s |}.

(** The assignments to the variables. *)
Definition set_find (n : nat) (s : search) : search :=
  {| s_find := n; s_separately := s_separately s; s_second := s_second s; s_buffer1 := s_buffer1 s; s_buffer2 := s_buffer2 s;
     s_pull0 := s_pull0 s; s_pull1 := s_pull1 s |}.
Definition set_separately (b : bool) (s : search) : search :=
  {| s_find := s_find s; s_separately := b; s_second := s_second s; s_buffer1 := s_buffer1 s; s_buffer2 := s_buffer2 s;
     s_pull0 := s_pull0 s; s_pull1 := s_pull1 s |}.
Definition set_second (s : search) : search :=
  {| s_find := s_find s; s_separately := s_separately s; s_second := true; s_buffer1 := s_buffer1 s; s_buffer2 := s_buffer2 s;
     s_pull0 := s_pull0 s; s_pull1 := s_pull1 s |}.
Definition set_buffer1 (r : range) (s : search) : search :=
  {| s_find := s_find s; s_separately := s_separately s; s_second := s_second s; s_buffer1 := r; s_buffer2 := s_buffer2 s;
     s_pull0 := s_pull0 s; s_pull1 := s_pull1 s |}.
Definition set_buffer2 (r : range) (s : search) : search :=
  {| s_find := s_find s; s_separately := s_separately s; s_second := s_second s; s_buffer1 := s_buffer1 s; s_buffer2 := r;
     s_pull0 := s_pull0 s; s_pull1 := s_pull1 s |}.
(** detail/wiki_sort.h:646-648. *)
Definition shorten_pull0 (RA : range) (s : search) : search :=
  if start (p_range (s_pull0 s)) =? start RA then
    {| s_find := s_find s; s_separately := s_separately s; s_second := s_second s; s_buffer1 := s_buffer1 s; s_buffer2 := s_buffer2 s;
       s_pull0 := {| p_from := p_from (s_pull0 s); p_to := p_to (s_pull0 s); p_count := p_count (s_pull0 s);
                     p_range := (start (p_range (s_pull0 s)), end_ (p_range (s_pull0 s)) - p_count (s_pull1 s)) |};
       s_pull1 := s_pull1 s |}
  else s.

(** detail/wiki_sort.h:575-608; the boolean tells that the search is over. *)
Definition found_in_A (cache_size block_size buffer_size : nat) (RA RB : range) (count index : nat) (s : search) : search * bool :=
  let buffer := (start RA, start RA + count) in
  if buffer_size <=? count then
    let s := set_second (do_pull RA RB count index (start RA) s) in
    if count =? buffer_size + buffer_size then
      (set_buffer2 (start RA + buffer_size, start RA + count) (set_buffer1 (start RA, start RA + buffer_size) s), true)
    else if s_find s =? buffer_size + buffer_size then (set_find buffer_size (set_buffer1 buffer s), false)
    else if (0 <? cache_size) && (block_size <=? cache_size) then (set_buffer1 buffer s, true)
    else if s_separately s then (set_separately false (set_buffer1 buffer s), false)
    else (set_buffer2 buffer s, true)
  else if negb (s_second s) && (len (s_buffer1 s) <? count) then (do_pull RA RB count index (start RA) (set_buffer1 buffer s), false)
  else (s, false).

(** detail/wiki_sort.h:619-658. *)
Definition found_in_B (cache_size block_size buffer_size : nat) (RA RB : range) (count index : nat) (s : search) : search * bool :=
  let buffer := (end_ RB - count, end_ RB) in
  if buffer_size <=? count then
    let s := set_second (do_pull RA RB count index (end_ RB) s) in
    if count =? buffer_size + buffer_size then
      (set_buffer2 (end_ RB - buffer_size, end_ RB) (set_buffer1 (end_ RB - count, end_ RB - buffer_size) s), true)
    else if s_find s =? buffer_size + buffer_size then (set_find buffer_size (set_buffer1 buffer s), false)
    else if (0 <? cache_size) && (block_size <=? cache_size) then (set_buffer1 buffer s, true)
    else if s_separately s then (set_separately false (set_buffer1 buffer s), false)
    else (set_buffer2 buffer (shorten_pull0 RA s), true)
  else if negb (s_second s) && (len (s_buffer1 s) <? count) then (do_pull RA RB count index (end_ RB) (set_buffer1 buffer s), false)
  else (s, false).

(** detail/wiki_sort.h:515-543: the initial values. *)
Definition search_init (first length cache_size block_size buffer_size : nat) : search :=
  let '(from0, to0, from1, to1) := junk length in
  let cached := (0 <? cache_size) && (block_size <=? cache_size) in
  let separate := negb cached && (length <? buffer_size + buffer_size) in
  {| s_find := if cached || separate then buffer_size else buffer_size + buffer_size; s_separately := separate; s_second := false;
     s_buffer1 := (first, first); s_buffer2 := (first, first);
     s_pull0 := {| p_from := from0; p_to := to0; p_count := 0; p_range := (first, first) |};
     s_pull1 := {| p_from := from1; p_to := to1; p_count := 0; p_range := (first, first) |} |}.

(** detail/wiki_sort.h:552-659. *)
Definition find_buffers (first size denominator decimal_step numerator_step cache_size block_size buffer_size : nat) : M A search :=
  loop (S size) (fun '(i, s) =>
    if size <=? fst i then ret (inr s) else
    let '(RA, i) := next_range denominator decimal_step numerator_step first i in
    let '(RB, i) := next_range denominator decimal_step numerator_step first i in
    let* (count, index) := count_forward RA (s_find s) in
    let '(s, done) := found_in_A cache_size block_size buffer_size RA RB count index s in
    if (done : bool) then ret (inr s) else
    let* (count, index) := count_backward RB (s_find s) in
    let '(s, done) := found_in_B cache_size block_size buffer_size RA RB count index s in
    if (done : bool) then ret (inr s) else ret (inl (i, s)))
  ((0, 0), search_init first decimal_step cache_size block_size buffer_size).

(** detail/wiki_sort.h:665-677: pull values out to the left; the result is the new [from]. *)
Definition pull_left (from to length : nat) : M A nat :=
  loop (S length) (fun '(count, index, from) =>
    if count <? length then
      let* v := get (index - 1) in
      let* index := find_first_backward to (from - (count - 1)) (proj v) (length - count) in
      rotate (S index) (S from - count) (S from) ;;
      ret (inl (S count, index, index + count))
    else ret (inr from)) (1, from, from).

(** detail/wiki_sort.h:678-688: pull values out to the right; the result is the new [from]. *)
Definition pull_right (from to length : nat) : M A nat :=
  loop (S length) (fun '(count, index, from) =>
    if count <? length then
      let* v := get index in
      let* index := find_last_forward index to (proj v) (length - count) in
      rotate from (from + count) (index - 1) ;;
      ret (inl (S count, index, index - count - 1))
    else ret (inr from)) (1, S from, from).

(** detail/wiki_sort.h:663-688, the body of the loop. *)
Definition pull_out (p : pull) : M A pull :=
  let* from :=
    (if p_to p <? p_from p then pull_left (p_from p) (p_to p) (p_count p)
     else if p_from p <? p_to p then pull_right (p_from p) (p_to p) (p_count p)
     else ret (p_from p)) in
  ret {| p_from := from; p_to := p_to p; p_count := p_count p; p_range := p_range p |}.

(** detail/wiki_sort.h:707-719 or 720-728: what remains of A and B, [None] if there is nothing to merge. *)
Definition remove_buffer (begin_ : nat) (p : pull) (RA RB : range) : option (range * range) :=
  if begin_ =? start (p_range p) then
    if p_to p <? p_from p then
      let RA := (start RA + p_count p, end_ RA) in
      if len RA =? 0 then None else Some (RA, RB)
    else if p_from p <? p_to p then
      let RB := (start RB, end_ RB - p_count p) in
      if len RB =? 0 then None else Some (RA, RB)
    else Some (RA, RB)
  else Some (RA, RB).

(** detail/wiki_sort.h:741-744. *)
Definition tag_blocks (buffer1 index blockA_end block_size : nat) : M A unit :=
  loop (S (blockA_end - index)) (fun '(indexA, index) =>
    if index <? blockA_end then swap indexA index ;; ret (inl (S indexA, index + block_size))
    else ret (inr tt)) (buffer1, index).

(** detail/wiki_sort.h:774-779: the block with the smallest tag. *)
Definition min_block (blockA : range) (block_size : nat) : M A nat :=
  loop (S (len blockA)) (fun '(minA, findA) =>
    if findA <? end_ blockA then
      let* c := comp_at findA minA in
      ret (inl (if c then findA else minA, findA + block_size))
    else ret (inr minA)) (start blockA, start blockA + block_size).

(** detail/wiki_sort.h:790-800 or 852-861. *)
Definition merge_last (cache_begin cache_size : nat) (buffer2 lastA : range) (last : nat) : M A unit :=
  if (0 <? cache_size) && (len lastA <=? cache_size) then
    half_inplace_merge cache_begin (cache_begin + len lastA) (end_ lastA) last (start lastA) (Nat.min (len lastA) (last - end_ lastA))
  else if 0 <? len buffer2 then merge_internal (start lastA) (end_ lastA) (end_ lastA) last (start buffer2)
  else merge_in_place (start lastA) (end_ lastA) last.

(** detail/wiki_sort.h:769-819: drop the smallest A block; the result is the new [lastA] and [lastB]. *)
Definition drop_block (cache_begin cache_size block_size : nat) (buffer2 : range) (indexA : nat) (lastA lastB blockA : range) : M A (range * range) :=
  let* v := get indexA in
  let* B_split := lower_bound comp proj (start lastB) (end_ lastB) (proj v) in
  let B_remaining := end_ lastB - B_split in
  let* minA := min_block blockA block_size in
  swap_ranges (start blockA) (start blockA + block_size) minA ;;
  swap (start blockA) indexA ;;
  merge_last cache_begin cache_size buffer2 lastA B_split ;;
  (if (0 <? len buffer2) || ((0 <? cache_size) && (block_size <=? cache_size)) then
     if block_size <=? cache_size then
       let* _ := move_range (start blockA) (start blockA + block_size) cache_begin in
       let* _ := move_range B_split (B_split + B_remaining) (start blockA + (block_size - B_remaining)) in ret tt
     else
       let* _ := swap_ranges (start blockA) (start blockA + block_size) (start buffer2) in
       let* _ := swap_ranges B_split (B_split + B_remaining) (start blockA + (block_size - B_remaining)) in ret tt
   else let* _ := rotate B_split (start blockA) (start blockA + block_size) in ret tt) ;;
  let lastA := (start blockA - B_remaining, start blockA + block_size - B_remaining) in
  ret (lastA, (end_ lastA, end_ lastA + B_remaining)).

(** detail/wiki_sort.h:763-848: roll the A blocks through the B blocks; the result is the last A block. *)
Definition roll_blocks (cache_begin cache_size block_size : nat) (buffer2 : range) (RB : range)
    (indexA : nat) (lastA lastB blockA blockB : range) : M A range :=
  loop (S (len blockA + len RB)) (fun '(indexA, lastA, lastB, blockA, blockB) =>
    let* drop := (if 0 <? len lastB then let* c := comp_at (end_ lastB - 1) indexA in ret (negb c) else ret false) in
    if (drop : bool) || (len blockB =? 0) then
      let* (lastA, lastB) := drop_block cache_begin cache_size block_size buffer2 indexA lastA lastB blockA in
      let blockA := (start blockA + block_size, end_ blockA) in
      if len blockA =? 0 then ret (inr lastA) else ret (inl (S indexA, lastA, lastB, blockA, blockB))
    else if len blockB <? block_size then
      rotate (start blockA) (start blockB) (end_ blockB) ;;
      let lastB := (start blockA, start blockA + len blockB) in
      ret (inl (indexA, lastA, lastB, (start blockA + len blockB, end_ blockA + len blockB), (start blockB, start blockB)))
    else
      swap_ranges (start blockA) (start blockA + block_size) (start blockB) ;;
      let lastB := (start blockA, start blockA + block_size) in
      let blockA := (start blockA + block_size, end_ blockA + block_size) in
      let blockB := (start blockB + block_size, if end_ RB - block_size <? end_ blockB then end_ RB else end_ blockB + block_size) in
      ret (inl (indexA, lastA, lastB, blockA, blockB)))
  (indexA, lastA, lastB, blockA, blockB).

(** detail/wiki_sort.h:736-861: merge A and B by blocks.  [first] is only the value of an empty range. *)
Definition merge_blocks (first cache_begin cache_size block_size : nat) (buffer1 buffer2 : range) (RA RB : range) : M A unit :=
  let firstA := (start RA, start RA + len RA mod block_size) in
  tag_blocks (start buffer1) (end_ firstA) (end_ RA) block_size ;;
  let blockB := (start RB, start RB + Nat.min block_size (len RB)) in
  let blockA := (start RA + len firstA, end_ RA) in
  (if (0 <? cache_size) && (len firstA <=? cache_size) then
     let* _ := move_range (start firstA) (end_ firstA) cache_begin in ret tt
   else if 0 <? len buffer2 then
     let* _ := swap_ranges (start firstA) (end_ firstA) (start buffer2) in ret tt
   else ret tt) ;;
  let* lastA :=
    (if 0 <? len blockA then roll_blocks cache_begin cache_size block_size buffer2 RB (start buffer1) firstA (first, first) blockA blockB
     else ret firstA) in
  merge_last cache_begin cache_size buffer2 lastA (end_ RB).

(** detail/wiki_sort.h:730-862. *)
Definition merge_pair (first cache_begin cache_size block_size : nat) (buffer1 buffer2 : range) (RA RB : range) : M A unit :=
  let* c := comp_at (end_ RB - 1) (start RA) in
  if c then let* _ := rotate (start RA) (end_ RA) (end_ RB) in ret tt else
  let* c := comp_at (start RB) (end_ RA - 1) in
  if c then merge_blocks first cache_begin cache_size block_size buffer1 buffer2 RA RB else ret tt.

(** detail/wiki_sort.h:700-863. *)
Definition merge_pairs (first size denominator decimal_step numerator_step cache_begin cache_size block_size : nat)
    (buffer1 buffer2 : range) (pull0 pull1 : pull) : M A unit :=
  loop (S size) (fun i =>
    if size <=? fst i then ret (inr tt) else
    let '(RA, i) := next_range denominator decimal_step numerator_step first i in
    let '(RB, i) := next_range denominator decimal_step numerator_step first i in
    let begin_ := start RA in
    match remove_buffer begin_ pull0 RA RB with
    | None => ret (inl i)
    | Some (RA, RB) =>
        match remove_buffer begin_ pull1 RA RB with
        | None => ret (inl i)
        | Some (RA, RB) => merge_pair first cache_begin cache_size block_size buffer1 buffer2 RA RB ;; ret (inl i)
        end
    end) (0, 0).

(** detail/wiki_sort.h:875-889. *)
Definition redistribute_right (p : pull) : M A unit :=
  loop (S (p_count p)) (fun '(buffer, unique) =>
    if 0 <? len buffer then
      let* v := get (start buffer) in
      let* index := find_first_forward (end_ buffer) (end_ (p_range p)) (proj v) unique in
      let amount := index - end_ buffer in
      rotate (start buffer) (end_ buffer) index ;;
      ret (inl ((start buffer + (amount + 1), end_ buffer + amount), unique - 2))
    else ret (inr tt)) ((start (p_range p), start (p_range p) + p_count p), p_count p * 2).

(** detail/wiki_sort.h:890-904. *)
Definition redistribute_left (p : pull) : M A unit :=
  loop (S (p_count p)) (fun '(buffer, unique) =>
    if 0 <? len buffer then
      let* v := get (end_ buffer - 1) in
      let* index := find_last_backward (start (p_range p)) (start buffer) (proj v) unique in
      let amount := start buffer - index in
      rotate index (index + amount) (end_ buffer) ;;
      ret (inl ((start buffer - amount, end_ buffer - (amount + 1)), unique - 2))
    else ret (inr tt)) ((end_ (p_range p) - p_count p, end_ (p_range p)), p_count p * 2).

(** detail/wiki_sort.h:874-904, the body of the loop. *)
Definition redistribute (p : pull) : M A unit :=
  if p_to p <? p_from p then redistribute_right p
  else if p_from p <? p_to p then redistribute_left p
  else ret tt.

(** detail/wiki_sort.h:499-907: merge the ranges of a level in place.  [std::sqrt] of an integer converted to double is modelled by the
    integer square root, which it is equal to below 2^52. *)
Definition merge_level (first size denominator decimal_step numerator_step cache_begin cache_size : nat) : M A unit :=
  let block_size := Nat.sqrt decimal_step in
  let buffer_size := decimal_step / block_size + 1 in
  let* s := find_buffers first size denominator decimal_step numerator_step cache_size block_size buffer_size in
  let* pull0 := pull_out (s_pull0 s) in
  let* pull1 := pull_out (s_pull1 s) in
  let buffer1 := s_buffer1 s in
  let buffer2 := s_buffer2 s in
  if len buffer1 =? 0 then ub else
  let block_size := decimal_step / len buffer1 + 1 in
  merge_pairs first size denominator decimal_step numerator_step cache_begin cache_size block_size buffer1 buffer2 pull0 pull1 ;;
  insertion_sort comp proj (start buffer2) (end_ buffer2) ;;
  redistribute pull0 ;;
  redistribute pull1.

(** detail/wiki_sort.h:410-911: the levels. *)
Definition merge_levels (first size denominator cache_begin cache_size : nat) (level : nat * nat) : M A unit :=
  loop (S size) (fun level =>
    let '(decimal_step, numerator_step) := level in
    let* level :=
      (if decimal_step <? cache_size then
         if ((decimal_step + 1) * 4 <=? cache_size) && (decimal_step * 4 <=? size) then
           merge_fours first size denominator decimal_step numerator_step cache_begin ;;
           ret (next_level denominator level)
         else
           merge_twos first size denominator decimal_step numerator_step cache_begin ;;
           ret level
       else
         merge_level first size denominator decimal_step numerator_step cache_begin cache_size ;;
         ret level) in
    let level := next_level denominator level in
    if fst level <? size then ret (inl level) else ret (inr tt)) level.

(** detail/wiki_sort.h:331-912, with the constructor of lines 273-281: [hyperfloor] is called on the size, whose type is the difference type of the
    iterators, a signed type.  The other computations on sizes are modelled without overflow. *)
Definition sort (difference_type : int_type) (first last cache_begin cache_size : nat) : M A unit :=
  let size := last - first in
  if size <? 15 then insertion_sort comp proj first last else
  match hyperfloor difference_type (Z.of_nat size) with None => ub | Some power_of_two =>
  let denominator := Z.to_nat power_of_two / 4 in
  let decimal_step := size / denominator in
  let numerator_step := size mod denominator in
  sort_groups first size denominator decimal_step numerator_step ;;
  merge_levels first size denominator cache_begin cache_size (decimal_step, numerator_step)
  end.

(** detail/wiki_sort.h:915-930, sorters/wiki_sorter.h:32-61; [buffer_size] is what the buffer provider returns for a collection. *)
Definition wiki_sorter (difference_type : int_type) (buffer_size : nat -> nat) : range_prog A := fun first last =>
  let n := buffer_size (last - first) in
  let* cache := make_buffer n in
  sort difference_type first last cache n ;;
  destroy_n cache n ;;
  dealloc cache n.
End Model.
