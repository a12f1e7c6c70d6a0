(** spinsort.  A [range] of the code is the pair of the addresses of its two iterators. *)
From Coq Require Import List Arith Bool.
From Verif Require Import Lang.Mem Model.Rotate Model.Search Model.Insertion Model.Merge Model.Indirect Model.Select.
Import ListNotations.

(** detail/bitops.h:78-87; [Nat.log2] is floor(log2) on positive numbers. *)
Definition level_odd (level : nat) : bool := Nat.odd level.

Section Model.
Context {A T : Type} (comp : T -> T -> bool) (proj : A -> T).

(** detail/is_sorted_until.h:16-35. *)
Definition is_sorted_until (comp : T -> T -> bool) (first last : nat) : M A nat :=
  if first =? last then ret last else
  loop (S (last - first)) (fun '(first, next) =>
    let next := S next in
    if next =? last then ret (inr last) else
    let* y := get next in
    let* x := get first in
    if comp (proj y) (proj x) then ret (inr next) else ret (inl (next, next))) (first, first).

(** detail/merge_move.h:22-66; both projections are the same here. The assumptions of lines 47-48 are preconditions. *)
Definition merge_move (first1 last1 first2 last2 result : nat) : M A nat :=
  if first1 =? last1 then move_range first2 last2 result else
  if first2 =? last2 then move_range first1 last1 result else
  loop (S ((last1 - first1) + (last2 - first2))) (fun '(first1, first2, result) =>
    if first1 =? last1 then ub else
    if first2 =? last2 then ub else
    let* x2 := get first2 in
    let* x1 := get first1 in
    if comp (proj x2) (proj x1) then
      move_to first2 result ;;
      let first2 := S first2 in
      if first2 =? last2 then let* r := move_range first1 last1 (S result) in ret (inr r)
      else ret (inl (first1, first2, S result))
    else
      move_to first1 result ;;
      let first1 := S first1 in
      if first1 =? last1 then let* r := move_range first2 last2 (S result) in ret (inr r)
      else ret (inl (first1, first2, S result))) (first1, first2, result).

(** detail/boost_common/util/merge.h:56-86. *)
Definition boost_merge (buf1 end_buf1 buf2 end_buf2 buf_out : nat) : M A nat :=
  let rest := merge_move buf1 end_buf1 buf2 end_buf2 buf_out in
  if 1024 <=? (end_buf1 - buf1) + (end_buf2 - buf2) then
    if buf1 =? end_buf1 then move_range buf2 end_buf2 buf_out else
    if buf2 =? end_buf2 then move_range buf1 end_buf1 buf_out else
    let* x2 := get buf2 in
    let* x1 := get (end_buf1 - 1) in
    if negb (comp (proj x2) (proj x1)) then
      let* mid := move_range buf1 end_buf1 buf_out in
      move_range buf2 end_buf2 mid
    else
    let* x2 := get (end_buf2 - 1) in
    let* x1 := get buf1 in
    if comp (proj x2) (proj x1) then
      let* mid := move_range buf2 end_buf2 buf_out in
      move_range buf1 end_buf1 mid
    else rest
  else rest.

(** detail/boost_common/util/merge.h:106-136, with the assertion of line 112. *)
Definition merge_half (buf1 end_buf1 buf2 end_buf2 buf_out : nat) : M A unit :=
  assert (buf2 - buf_out =? end_buf1 - buf1) ;;
  let rest := half_inplace_merge false comp proj buf1 end_buf1 buf2 end_buf2 buf_out (end_buf1 - buf1) in
  if 1024 <=? (end_buf1 - buf1) + (end_buf2 - buf2) then
    if buf1 =? end_buf1 then ret tt else
    if buf2 =? end_buf2 then let* _ := move_range buf1 end_buf1 buf_out in ret tt else
    let* x2 := get buf2 in
    let* x1 := get (end_buf1 - 1) in
    if negb (comp (proj x2) (proj x1)) then
      let* _ := move_range buf1 end_buf1 buf_out in ret tt
    else
    let* x2 := get (end_buf2 - 1) in
    let* x1 := get buf1 in
    if comp (proj x2) (proj x1) then
      let* mid := move_range buf2 end_buf2 buf_out in
      let* _ := move_range buf1 end_buf1 mid in ret tt
    else rest
  else rest.

(** detail/swap_ranges.h:32-44, called with a reverse iterator: [first2] is its base. *)
Definition swap_ranges_reverse (first1 last1 first2 : nat) : M A unit :=
  loop (S (last1 - first1)) (fun '(first1, first2) =>
    if first1 =? last1 then ret (inr tt) else
    swap first1 (first2 - 1) ;; ret (inl (S first1, first2 - 1))) (first1, first2).

(** detail/spinsort.h:88-97: the positions of the elements to insert. *)
Definition insert_positions (first mid data ndata : nat) : M A (list nat) :=
  let* (viter, _) := loop (S ndata) (fun '(i, viter, linf) =>
    if i <? ndata then
      let* x := get (data + i) in
      let* it1 := upper_bound comp proj linf mid (proj x) in
      ret (inl (S i, viter ++ [it1], it1))
    else ret (inr (viter, linf))) (0, [], first) in
  ret (viter ++ [mid]).

(** detail/spinsort.h:99-108: the elements are moved, from the last one to the first one. *)
Definition insert_moves (viter : list nat) (data ndata : nat) : M A unit :=
  loop (S ndata) (fun i =>
    if i =? 0 then ret (inr tt) else
    let* src := rd viter i in
    let* limit := rd viter (i - 1) in
    let* _ := move_backward limit src (src + i) in
    move_to (data + (i - 1)) (limit + (i - 1)) ;;
    ret (inl (i - 1))) ndata.

(** detail/spinsort.h:66-109, with the assertion of line 75. *)
Definition insert_partial_sort (first mid last : nat) (aux : nat * nat) : M A unit :=
  assert (last - mid <=? snd aux - fst aux) ;;
  if (mid =? last) || (first =? mid) then ret tt else
  let data := fst aux in
  let* _ := move_range mid last data in
  let ndata := last - mid in
  let* viter := insert_positions first mid data ndata in
  insert_moves viter data ndata.

Section Rec.
(** [range_sort], which calls [sort_range_sort] through [check_stable_sort]. *)
Variable range_sort : nat * nat -> nat * nat -> nat -> M A unit.

(** detail/spinsort.h:255-283. *)
Definition sort_range_sort (rng_data rng_aux : nat * nat) : M A unit :=
  let size := snd rng_data - fst rng_data in
  if size <=? 32 then insertion_sort comp proj (fst rng_data) (snd rng_data) else
  assert (size <=? snd rng_aux - fst rng_aux) ;;
  let rng_buffer := (fst rng_aux, fst rng_aux + size) in
  let nlevel_1 := (size + 32 - 1) / 32 - 1 in
  assert (0 <? nlevel_1) ;;
  let nlevel := Nat.log2 nlevel_1 + 1 in
  if negb (level_odd nlevel) then range_sort rng_buffer rng_data nlevel
  else
    range_sort rng_data rng_buffer nlevel ;;
    assert (snd rng_buffer - fst rng_buffer <=? size) ;;
    let* _ := move_range (fst rng_buffer) (snd rng_buffer) (fst rng_data) in ret tt.

(** detail/spinsort.h:127-176. *)
Definition check_stable_sort (rng_data rng_aux : nat * nat) : M A bool :=
  let first := fst rng_data in
  let last := snd rng_data in
  let ndata := last - first in
  if ndata <? 32 then insertion_sort comp proj first last ;; ret true else
  let min_insert_partial_sort := if ndata / 8 <? 33 then 32 else ndata / 8 in
  let* it := is_sorted_until comp first last in
  if it =? last then ret true else
  if last - it <? min_insert_partial_sort then
    sort_range_sort (it, last) rng_aux ;;
    insert_partial_sort first it last rng_aux ;;
    ret true
  else
  if negb (it =? S first) then ret false else
  let* it := is_sorted_until (fun x y => negb (comp x y)) first last in
  if min_insert_partial_sort <=? last - it then ret false else
  let nreverse := it - first in
  let mid := first + nreverse / 2 in
  swap_ranges_reverse first mid it ;;
  if negb (it =? last) then
    sort_range_sort (it, last) rng_aux ;;
    insert_partial_sort first it last rng_aux ;;
    ret true
  else ret true.
End Rec.

(** detail/spinsort.h:196-240, with the assertion of line 204 and that of move_forward (detail/boost_common/range.h:140). *)
Fixpoint range_sort (fuel : nat) (range1 range2 : nat * nat) (level : nat) : M A unit :=
  match fuel with
  | 0 => nofuel
  | S fuel =>
    let size := snd range1 - fst range1 in
    assert ((size =? snd range2 - fst range2) && negb (level =? 0)) ;;
    let* done :=
      (if 1024 <? size then
         if negb (level_odd level) then check_stable_sort (range_sort fuel) range2 range1
         else
           let* sorted := check_stable_sort (range_sort fuel) range1 range2 in
           if sorted : bool then
             let* _ := move_range (fst range1) (snd range1) (fst range2) in ret true
           else ret false
       else ret false) in
    if done : bool then ret tt else
    let nelem1 := (size + 1) / 2 in
    let mid1 := fst range1 + nelem1 in
    let mid2 := fst range2 + nelem1 in
    (if level <? 2 then
       insertion_sort comp proj (fst range1) mid1 ;;
       insertion_sort comp proj mid1 (snd range1)
     else
       range_sort fuel (fst range2, mid2) (fst range1, mid1) (level - 1) ;;
       range_sort fuel (mid2, snd range2) (mid1, snd range1) (level - 1)) ;;
    let* _ := boost_merge (fst range1) mid1 mid1 (snd range1) (fst range2) in ret tt
  end.

(** detail/spinsort.h:312-371.  The objects built in the buffer are destroyed, and the buffer is released, on return (lines 331-342). *)
Definition spinsort (first last : nat) : M A unit :=
  let size := last - first in
  if size <=? 36 * 2 then insertion_sort comp proj first last else
  let nelem_1 := (size + 1) / 2 in
  let nelem_2 := size - nelem_1 in
  let* buffer := alloc nelem_1 in
  let nlevel := Nat.log2 ((size + 36 - 1) / 36 - 1) in
  assert (negb (nlevel =? 0)) ;;
  let fuel := S (size + nlevel) in
  (if level_odd nlevel then
     let range_1 := (first, first + nelem_2) in
     let range_2 := (first + nelem_2, last) in
     let* aux_last := uninitialized_move (fst range_2) (snd range_2) buffer in
     range_sort fuel (buffer, aux_last) range_2 nlevel ;;
     let rng_bx := (buffer, buffer + nelem_2) in
     range_sort fuel range_1 rng_bx nlevel ;;
     merge_half (fst rng_bx) (snd rng_bx) (fst range_2) (snd range_2) first
   else
     let range_1 := (first, first + nelem_1) in
     let range_2 := (first + nelem_1, last) in
     let* aux_last := uninitialized_move (fst range_1) (snd range_1) buffer in
     range_sort fuel range_1 (buffer, aux_last) nlevel ;;
     let range_1 := (first, first + (snd range_2 - fst range_2)) in
     range_sort fuel range_1 range_2 nlevel ;;
     merge_half buffer aux_last (fst range_2) (snd range_2) first) ;;
  destroy_n buffer nelem_1 ;;
  dealloc buffer nelem_1.

(** sorters/spin_sorter.h:31-63. *)
Definition spin_sorter : range_prog A := spinsort.
End Model.
