(** In-place merging and merge sort. *)
From Coq Require Import List Arith Bool.
From Verif Require Import Lang.Mem Model.Insertion Model.Basic Model.Heap Model.Rotate Model.Search Model.Buffer.
Import ListNotations.

(** A std::reverse_iterator is represented by its base: [*it] is the cell before the base and [++it]
    decrements the base. *)
Definition it_deref (rev : bool) (it : nat) : nat := if rev then it - 1 else it.
Definition it_next (rev : bool) (it : nat) : nat := if rev then it - 1 else S it.

Section HalfMerge.
Context {A T : Type}.

(** detail/move.h:26-48, with reverse iterators when [rev]. *)
Definition move_range_dir (rev : bool) (n : nat) (first last result : nat) : M A unit :=
  loop (S n) (fun '(first, result) =>
    if first =? last then ret (inr tt) else
    move_to (it_deref rev first) (it_deref rev result) ;;
    ret (inl (it_next rev first, it_next rev result))) (first, result).

(** Number of increments from [first] to [last]. *)
Definition it_distance (rev : bool) (first last : nat) : nat := if rev then first - last else last - first.

(** detail/buffered_inplace_merge.h:52-63, first loop. The two CPPSORT_ASSUME are [ub] when violated. *)
Definition half_merge_loop_1 (rev : bool) (comp : T -> T -> bool) (proj : A -> T)
    (first1 last1 first2 last2 result min_len : nat) : M A (nat * nat * nat) :=
  loop (S min_len) (fun '(min_len, first1, first2, result) =>
    if min_len =? 0 then ret (inr (first1, first2, result)) else
    if first1 =? last1 then ub else
    if first2 =? last2 then ub else
    let* x2 := get (it_deref rev first2) in
    let* x1 := get (it_deref rev first1) in
    if comp (proj x2) (proj x1) then
      move_to (it_deref rev first2) (it_deref rev result) ;;
      ret (inl (min_len - 1, first1, it_next rev first2, it_next rev result))
    else
      move_to (it_deref rev first1) (it_deref rev result) ;;
      ret (inl (min_len - 1, it_next rev first1, first2, it_next rev result)))
  (min_len, first1, first2, result).

(** detail/buffered_inplace_merge.h:75-95, second loop. *)
Definition half_merge_loop_2 (rev : bool) (comp : T -> T -> bool) (proj : A -> T)
    (first1 last1 first2 last2 result : nat) : M A unit :=
  loop (S (it_distance rev first1 last1 + it_distance rev first2 last2)) (fun '(first1, first2, result) =>
    if first1 =? last1 then ub else
    if first2 =? last2 then ub else
    let* x2 := get (it_deref rev first2) in
    let* x1 := get (it_deref rev first1) in
    if comp (proj x2) (proj x1) then
      move_to (it_deref rev first2) (it_deref rev result) ;;
      let first2 := it_next rev first2 in
      if first2 =? last2 then
        move_range_dir rev (it_distance rev first1 last1) first1 last1 (it_next rev result) ;; ret (inr tt)
      else ret (inl (first1, first2, it_next rev result))
    else
      move_to (it_deref rev first1) (it_deref rev result) ;;
      let first1 := it_next rev first1 in
      if first1 =? last1 then ret (inr tt)
      else ret (inl (first1, first2, it_next rev result)))
  (first1, first2, result).

(** detail/buffered_inplace_merge.h:39-96. *)
Definition half_inplace_merge (rev : bool) (comp : T -> T -> bool) (proj : A -> T)
    (first1 last1 first2 last2 result min_len : nat) : M A unit :=
  let* (first1, first2, result) := half_merge_loop_1 rev comp proj first1 last1 first2 last2 result min_len in
  if first1 =? last1 then ret tt else
  if first2 =? last2 then move_range_dir rev (it_distance rev first1 last1) first1 last1 result else
  half_merge_loop_2 rev comp proj first1 last1 first2 last2 result.
End HalfMerge.

Section Model.
Context {A T : Type} (comp : T -> T -> bool) (proj : A -> T).

(** detail/buffered_inplace_merge.h:102-128. The objects built in the buffer are destroyed on return
    (lines 113-114). Types whose moves are trivial are treated like the others. *)
Definition buffered_inplace_merge (first middle last len1 len2 buff : nat) : M A unit :=
  if len1 <=? len2 then
    let* ptr := uninitialized_move first middle buff in
    half_inplace_merge false comp proj buff ptr middle last first len1 ;;
    destroy_n buff (middle - first)
  else
    let* ptr := uninitialized_move middle last buff in
    half_inplace_merge true (flip_comp comp) proj ptr buff middle first last len2 ;;
    destroy_n buff (last - middle).

(** detail/symmerge.h:26-46. *)
Definition symmerge_bsearch (arr l r p : nat) : M A nat :=
  loop (S (r - l)) (fun '(l, r) =>
    if l <? r then
      let m := l + (r - l) / 2 in
      let* x := get (arr + (p - m)) in
      let* y := get (arr + m) in
      if negb (comp (proj x) (proj y)) then ret (inl (S m, r)) else ret (inl (l, m))
    else ret (inr l)) (l, r).

(** detail/symmerge.h:48-86. The iterations of the while loop are the second recursive call. *)
Fixpoint symmerge (triv : bool) (fuel : nat) (arr first middle last len1 len2 buff buff_size : nat) : M A unit :=
  match fuel with
  | 0 => nofuel
  | S fuel =>
    if (0 <? len1) && (0 <? len2) then
      if (len1 <=? buff_size) || (len2 <=? buff_size) then
        buffered_inplace_merge (arr + first) (arr + middle) (arr + last) len1 len2 buff
      else
        let m := first + (last - first) / 2 in
        let n := m + middle in
        let* start := (if m <? middle then symmerge_bsearch arr (n - last) m (n - 1)
                       else symmerge_bsearch arr first middle (n - 1)) in
        let end_ := n - start in
        rotate RandomAccess triv (arr + start) (arr + middle) (arr + end_) ;;
        symmerge triv fuel arr first start m (start - first) (m - start) buff buff_size ;;
        symmerge triv fuel arr m end_ last (end_ - m) (last - end_) buff buff_size
    else ret tt
  end.

(** detail/recmerge_bidirectional.h:64-69, the shrinking loop; [None] when it returns. *)
Definition recmerge_shrink (first middle len1 : nat) : M A (option (nat * nat)) :=
  loop (S len1) (fun '(first, len1) =>
    if len1 =? 0 then ret (inr None) else
    let* x := get middle in
    let* y := get first in
    if comp (proj x) (proj y) then ret (inr (Some (first, len1)))
    else ret (inl (S first, len1 - 1))) (first, len1).

(** detail/recmerge_bidirectional.h:38-132. Each iteration of the while loop is a recursive call. *)
Fixpoint recmerge_bidirectional (triv : bool) (fuel : nat) (first middle last len1 len2 buff buff_size : nat) : M A unit :=
  match fuel with
  | 0 => nofuel
  | S fuel =>
    if len2 =? 0 then ret tt else
    if (len1 <=? buff_size) || (len2 <=? buff_size) then
      buffered_inplace_merge first middle last len1 len2 buff
    else
      let* r := recmerge_shrink first middle len1 in
      match r with
      | None => ret tt
      | Some (first, len1) =>
        let rest m1 m2 len11 len21 :=
          let len12 := len1 - len11 in
          let len22 := len2 - len21 in
          let* middle := rotate Bidirectional triv m1 middle m2 in
          if len11 + len21 <? len12 + len22 then
            recmerge_bidirectional triv fuel first m1 middle len11 len21 buff buff_size ;;
            recmerge_bidirectional triv fuel middle m2 last len12 len22 buff buff_size
          else
            recmerge_bidirectional triv fuel middle m2 last len12 len22 buff buff_size ;;
            recmerge_bidirectional triv fuel first m1 middle len11 len21 buff buff_size in
        if len1 <? len2 then
          let len21 := len2 / 2 in
          let m2 := middle + len21 in
          let* v := get m2 in
          let* m1 := upper_bound comp proj first middle (proj v) in
          rest m1 m2 (m1 - first) len21
        else if len1 =? 1 then swap first middle
        else
          let len11 := len1 / 2 in
          let m1 := first + len11 in
          let* v := get m1 in
          let* m2 := lower_bound comp proj middle last (proj v) in
          rest m1 m2 len11 (m2 - middle)
      end
  end.

(** detail/recmerge_forward.h:95-147, with merge_n_step_0 (lines 49-70) and merge_n_step_1 (lines 72-93) inlined. *)
Fixpoint recmerge_forward (triv : bool) (fuel : nat) (f0 n0 f1 n1 buff buff_size : nat) : M A unit :=
  match fuel with
  | 0 => nofuel
  | S fuel =>
    if (n0 =? 0) || (n1 =? 0) then ret tt else
    if n0 <=? buff_size then
      let* buff_ptr := uninitialized_move f0 f1 buff in
      half_inplace_merge false comp proj buff buff_ptr f1 (f1 + n1) f0 n0 ;;
      destroy_n buff (f1 - f0)
    else if n0 <? n1 then
      let n0_0 := n0 / 2 in
      let f0_1 := f0 + n0_0 in
      let* v := get f0_1 in
      let* f1_1 := lower_bound_n comp proj f1 n1 (proj v) in
      let* f1_0 := rotate Forward triv f0_1 f1 f1_1 in
      let n0_1 := f1_0 - f0_1 in
      let f1_0 := S f1_0 in
      let n1_0 := n0 - n0_0 - 1 in
      let n1_1 := n1 - n0_1 in
      recmerge_forward triv fuel f0 n0_0 f0_1 n0_1 buff buff_size ;;
      recmerge_forward triv fuel f1_0 n1_0 f1_1 n1_1 buff buff_size
    else
      let n0_1 := n1 / 2 in
      let f1_1 := f1 + n0_1 in
      let* v := get f1_1 in
      let* f0_1 := upper_bound_n comp proj f0 n0 (proj v) in
      let f1_1 := S f1_1 in
      let* f1_0 := rotate Forward triv f0_1 f1 f1_1 in
      let n0_0 := f0_1 - f0 in
      let n1_0 := n0 - n0_0 in
      let n1_1 := n1 - n0_1 - 1 in
      recmerge_forward triv fuel f0 n0_0 f0_1 n0_1 buff buff_size ;;
      recmerge_forward triv fuel f1_0 n1_0 f1_1 n1_1 buff buff_size
  end.

(** detail/inplace_merge.h:53-69 and 74-90 (buffered overloads, through lines 201-215). The forward overload of
    lines 32-48 calls [recmerge] without its tag argument and cannot be instantiated; [Forward] stands for
    the direct calls to the forward [recmerge]. *)
Definition inplace_merge_buffered (cat : category) (triv : bool)
    (first middle last len1 len2 buff buff_size : nat) : M A unit :=
  match cat with
  | Forward => recmerge_forward triv (S (len1 + len2)) first len1 middle len2 buff buff_size
  | Bidirectional => recmerge_bidirectional triv (S (len1 + len2)) first middle last len1 len2 buff buff_size
  | RandomAccess =>
      symmerge triv (S (len1 + len2)) first 0 (middle - first) (last - first) len1 len2 buff buff_size
  end.

(** detail/inplace_merge.h:121-137. *)
Definition inplace_merge_n (cat : category) (triv : bool) (o : oracle)
    (first middle last len1 len2 : nat) : M A unit :=
  let* b := temporary_buffer o (Nat.min len1 len2) in
  inplace_merge_buffered cat triv first middle last len1 len2 (fst b) (snd b) ;;
  return_temporary_buffer b.

(** detail/inplace_merge.h:107-109 or 151-153, or detail/merge_sort.h:56-60 or 108-112: skip the elements of the
    left part that are not greater than the first one of the right part. *)
Definition shrink_left (first middle : nat) : M A nat :=
  loop (S (middle - first)) (fun first =>
    if first =? middle then ret (inr first) else
    let* x := get middle in
    let* y := get first in
    if negb (comp (proj x) (proj y)) then ret (inl (S first)) else ret (inr first)) first.

(** detail/inplace_merge.h:139-164 (bidirectional and random-access iterators), through lines 172-181. *)
Definition inplace_merge (cat : category) (triv : bool) (o : oracle) (first middle last : nat) : M A unit :=
  let* first := shrink_left first middle in
  if first =? middle then ret tt else
  inplace_merge_n cat triv o first middle last (middle - first) (last - middle).

(** detail/merge_sort.h:25-74, forward iterators. *)
Fixpoint merge_sort_impl_forward (triv : bool) (fuel : nat) (o : oracle) (first size : nat) (b : buffer) : M A buffer :=
  match fuel with
  | 0 => nofuel
  | S fuel =>
    if size <? 14 then bubble_sort comp proj first size ;; ret b else
    let size_left := size / 2 in
    let middle := first + size_left in
    let* b := merge_sort_impl_forward triv fuel (sub 0 o) first size_left b in
    let* b := merge_sort_impl_forward triv fuel (sub 1 o) middle (size - size_left) b in
    let* first := shrink_left first middle in
    if first =? middle then ret b else
    let size_left := middle - first in
    let* b := try_grow (sub 2 o) (size - size / 2) b in
    inplace_merge_buffered Forward triv first middle (middle + (size - size / 2)) size_left (size - size / 2) (fst b) (snd b) ;;
    ret b
  end.

(** detail/merge_sort.h:76-127, bidirectional and random-access iterators. *)
Fixpoint merge_sort_impl (cat : category) (triv : bool) (fuel : nat) (o : oracle)
    (first last size : nat) (b : buffer) : M A buffer :=
  match fuel with
  | 0 => nofuel
  | S fuel =>
    if size <? 40 then insertion_sort comp proj first last ;; ret b else
    let size_left := size / 2 in
    let middle := first + size_left in
    let* b := merge_sort_impl cat triv fuel (sub 0 o) first middle size_left b in
    let* b := merge_sort_impl cat triv fuel (sub 1 o) middle last (size - size_left) b in
    let* first := shrink_left first middle in
    if first =? middle then ret b else
    let size_left := middle - first in
    let* b := try_grow (sub 2 o) size_left b in
    inplace_merge_buffered cat triv first middle last size_left (size - size / 2) (fst b) (snd b) ;;
    ret b
  end.

(** detail/merge_sort.h:129-175. The returned buffer is destroyed at the end of the full expression. *)
Definition merge_sort (cat : category) (triv : bool) (o : oracle) (first last size : nat) : M A unit :=
  match cat with
  | Forward =>
      if size <? 14 then bubble_sort comp proj first size else
      let* b := merge_sort_impl_forward triv (S size) o first size null_buffer in
      return_temporary_buffer b
  | _ =>
      if size <? 40 then insertion_sort comp proj first last else
      let* b := merge_sort_impl cat triv (S size) o first last size null_buffer in
      return_temporary_buffer b
  end.

(** sorters/merge_sorter.h:58-81. *)
Definition merge_sorter (cat : category) (triv : bool) (o : oracle) : range_prog A :=
  fun first last => merge_sort cat triv o first last (last - first).
End Model.
