(** Adaptive quickselect and quick_merge_sort. *)
From Coq Require Import List Arith Bool.
From Verif Require Import Lang.Mem Model.Basic Model.Rotate Model.Pdq Model.Quick.
Import ListNotations.

(** CPPSORT_ASSERT and CPPSORT_ASSUME: a violated condition is [UB]. *)
Definition assert {A} (b : bool) : M A unit := if b then ret tt else ub.

Section Model.
Context {A T : Type} (comp : T -> T -> bool) (proj : A -> T).
Notation less := (less_at comp proj).

(** detail/adaptive_quickselect.h:37-54.  The partition is the one for bidirectional iterators. *)
Definition pivot_partition (r k length : nat) : M A nat :=
  assert (k <? length) ;;
  swap r (r + k) ;;
  let* pivot_pos := partition true (fun i => let* c := less r i in ret (negb c)) r (r + length) in
  (if pivot_pos =? 0 then ub else ret tt) ;;
  let pivot_pos := pivot_pos - 1 in
  swap r pivot_pos ;;
  ret pivot_pos.

(** detail/adaptive_quickselect.h:56-75.  The overload with four indices (lines 77-111) is not called by anything. *)
Definition median_index (r a b c : nat) : M A nat :=
  let* t := less (r + c) (r + a) in
  let '(a, c) := if (t : bool) then (c, a) else (a, c) in
  let* t := less (r + c) (r + b) in
  if (t : bool) then ret c else
  let* t := less (r + b) (r + a) in
  if (t : bool) then ret a else ret b.

(** detail/adaptive_quickselect.h:113-161. *)
Definition ninther (r i1 i2 i3 i4 i5 i6 i7 i8 i9 : nat) : M A unit :=
  let* i2 := median_index r i1 i2 i3 in
  let* i8 := median_index r i7 i8 i9 in
  let* t := less (r + i8) (r + i2) in
  let '(i2, i8) := if (t : bool) then (i8, i2) else (i2, i8) in
  let* t := less (r + i6) (r + i4) in
  let '(i4, i6) := if (t : bool) then (i6, i4) else (i4, i6) in
  let last_part i4 :=
    let* t := less (r + i4) (r + i2) in
    let* i4 := (if (t : bool) then ret i2 else
      let* t := less (r + i8) (r + i4) in
      ret (if (t : bool) then i8 else i4)) in
    swap (r + i5) (r + i4) in
  let* t := less (r + i5) (r + i4) in
  if (t : bool) then last_part i4 else
  let* t := less (r + i6) (r + i5) in
  if (t : bool) then last_part i6 else
  let* t := less (r + i5) (r + i2) in
  if (t : bool) then swap (r + i5) (r + i2) else
  let* t := less (r + i8) (r + i5) in
  if (t : bool) then swap (r + i5) (r + i8) else
  ret tt.

(** detail/adaptive_quickselect.h:163-206.  [lft] is the variable left.  The reference [old_pivot_proj] is read at every comparison.  The index [-1] is [UB]. *)
Definition expand_partition_left (r lo pivot : nat) : M A nat :=
  assert ((0 <? lo) && (lo <=? pivot)) ;;
  let oldPivot := pivot in
  let* s := loop (S lo) (fun '(lft, pivot) =>
    if lo <? pivot then
      if lft =? lo then
        swap (r + oldPivot) (r + pivot) ;; ret (inr (inr pivot))
      else
        let* c := less (r + oldPivot) (r + lft) in
        if c then
          let pivot := pivot - 1 in
          swap (r + lft) (r + pivot) ;; ret (inl (S lft, pivot))
        else ret (inl (S lft, pivot))
    else ret (inr (inl (lft, pivot)))) (0, pivot) in
  match s with
  | inr pivot => ret pivot
  | inl (lft, pivot) =>
    let* s := loop (S pivot) (fun '(lft, pivot) =>
      if lft =? pivot then ret (inr (inl pivot)) else
      let* c := less (r + oldPivot) (r + lft) in
      if c then
        let* s := loop (S pivot) (fun pivot =>
          if lft =? pivot then
            swap (r + oldPivot) (r + pivot) ;; ret (inr (inr pivot))
          else
            (if pivot =? 0 then ub else ret tt) ;;
            let pivot := pivot - 1 in
            let* c := less (r + pivot) (r + oldPivot) in
            if c then swap (r + lft) (r + pivot) ;; ret (inr (inl pivot))
            else ret (inl pivot)) pivot in
        match s with
        | inr pivot => ret (inr (inr pivot))
        | inl pivot => ret (inl (S lft, pivot))
        end
      else ret (inl (S lft, pivot))) (lft, pivot) in
    match s with
    | inr pivot => ret pivot
    | inl pivot => swap (r + oldPivot) (r + pivot) ;; ret pivot
    end
  end.

(** detail/adaptive_quickselect.h:208-249. *)
Definition expand_partition_right (r hi rite : nat) : M A nat :=
  assert (0 <=? hi) ;;
  assert (hi <=? rite) ;;
  let* s := loop (S rite) (fun '(pivot, rite) =>
    if pivot <? hi then
      if rite =? hi then
        swap r (r + pivot) ;; ret (inr (inr pivot))
      else
        let* c := less (r + rite) r in
        if c then
          let pivot := S pivot in
          swap (r + rite) (r + pivot) ;; ret (inl (pivot, rite - 1))
        else ret (inl (pivot, rite - 1))
    else ret (inr (inl (pivot, rite)))) (0, rite) in
  match s with
  | inr pivot => ret pivot
  | inl (pivot, rite) =>
    let* pivot := loop (S rite) (fun '(pivot, rite) =>
      if pivot <? rite then
        let* c := less (r + rite) r in
        if c then
          let* pivot := loop (S rite) (fun pivot =>
            if pivot <? rite then
              let pivot := S pivot in
              let* c := less r (r + pivot) in
              if c then swap (r + rite) (r + pivot) ;; ret (inr pivot)
              else ret (inl pivot)
            else ret (inr pivot)) pivot in
          ret (inl (pivot, rite - 1))
        else ret (inl (pivot, rite - 1))
      else ret (inr pivot)) (pivot, rite) in
    swap r (r + pivot) ;;
    ret pivot
  end.

(** detail/adaptive_quickselect.h:251-281. *)
Definition expand_partition (r lo pivot hi length : nat) : M A nat :=
  assert ((lo <=? pivot) && (pivot <? hi) && (hi <=? length)) ;;
  let hi := hi - 1 in
  let length := length - 1 in
  loop (S lo) (fun '(lft, length) =>
    let* s := loop (S lo) (fun lft =>
      if lft =? lo then
        let* p := expand_partition_right (r + pivot) (hi - pivot) (length - pivot) in
        ret (inr (inr (pivot + p)))
      else
        let* c := less (r + pivot) (r + lft) in
        if c then ret (inr (inl lft)) else ret (inl (S lft))) lft in
    match s with
    | inr p => ret (inr p)
    | inl lft =>
      let* s := loop (S length) (fun length =>
        if length =? hi then
          let* p := expand_partition_left (r + lft) (lo - lft) (pivot - lft) in
          ret (inr (inr (lft + p)))
        else
          let* c := less (r + pivot) (r + length) in
          if negb c then ret (inr (inl length)) else ret (inl (length - 1))) length in
      match s with
      | inr p => ret (inr p)
      | inl length => swap (r + lft) (r + length) ;; ret (inl (S lft, length - 1))
      end
    end) (0, length).

(** detail/adaptive_quickselect.h:294-328; [select r n length] is adaptive_quickselect. *)
Definition median_of_minima (select : nat -> nat -> nat -> M A unit) (r n length : nat) : M A nat :=
  assert (2 <=? length) ;; assert (n <=? length / 6) ;; assert (0 <? n) ;;
  let subset := n * 2 in
  let computeMinOver := (length - subset) / subset in
  assert (0 <? computeMinOver) ;;
  loop (S subset) (fun '(i, j) =>
    if i <? subset then
      let limit := j + computeMinOver in
      let* (j, minIndex) := loop (S computeMinOver) (fun '(j, minIndex) =>
        let j := S j in
        if j <? limit then
          let* c := less (r + j) (r + minIndex) in
          ret (inl (j, if (c : bool) then j else minIndex))
        else ret (inr (j, minIndex))) (j, j) in
      let* c := less (r + minIndex) (r + i) in
      (if (c : bool) then swap (r + i) (r + minIndex) else ret tt) ;;
      assert ((j <? length) || (i + 1 =? subset)) ;;
      ret (inl (S i, j))
    else ret (inr tt)) (0, subset) ;;
  select r n subset ;;
  expand_partition r 0 n subset length.

(** detail/adaptive_quickselect.h:334-368. *)
Definition median_of_maxima (select : nat -> nat -> nat -> M A unit) (r n length : nat) : M A nat :=
  assert (2 <=? length) ;; assert ((n <? length) && (length - n <=? n / 5)) ;;
  let subset := (length - n) * 2 in
  let subsetStart := length - subset in
  let computeMaxOver := subsetStart / subset in
  assert (0 <? computeMaxOver) ;;
  loop (S subset) (fun '(i, j) =>
    if i <? length then
      let limit := j + computeMaxOver in
      let* (j, maxIndex) := loop (S computeMaxOver) (fun '(j, maxIndex) =>
        let j := S j in
        if j <? limit then
          let* c := less (r + maxIndex) (r + j) in
          ret (inl (j, if (c : bool) then j else maxIndex))
        else ret (inr (j, maxIndex))) (j, j) in
      let* c := less (r + i) (r + maxIndex) in
      (if (c : bool) then swap (r + i) (r + maxIndex) else ret tt) ;;
      assert (negb (j =? 0) || (i + 1 =? length)) ;;
      ret (inl (S i, j))
    else ret (inr tt)) (subsetStart, subsetStart - subset * computeMaxOver) ;;
  select (r + subsetStart) (length - n) subset ;;
  expand_partition r subsetStart n length length.

(** detail/adaptive_quickselect.h:375-407.  [length <= 128 * 1024] is written [(length - 1) / 1024 < 128]. *)
Definition median_of_ninthers (select : nat -> nat -> nat -> M A unit) (r length : nat) : M A nat :=
  assert (12 <=? length) ;;
  let frac := if length <=? 2 ^ 10 then length / 12
              else if (length - 1) / 2 ^ 10 <? 128 then length / 64
              else length / 2 ^ 10 in
  let pivot := frac / 2 in
  let lo := length / 2 - pivot in
  let hi := lo + frac in
  assert (frac * 4 <=? lo) ;; assert (frac * 4 <=? length - hi) ;; assert (pivot <=? lo / 2) ;;
  let gap := (length - 9 * frac) / 4 in
  let a := lo - 4 * frac - gap in
  let b := hi + gap in
  loop (S frac) (fun '(i, a, b) =>
    if i <? hi then
      ninther r a (i - frac) b (a + 1) i (b + 1) (a + 2) (i + frac) (b + 2) ;;
      ret (inl (S i, a + 3, b + 3))
    else ret (inr tt)) (lo, a, b) ;;
  select (r + lo) pivot frac ;;
  expand_partition r lo (lo + pivot) hi length.

(** detail/adaptive_quickselect.h:415-474; every iteration has a smaller length. *)
Fixpoint adaptive_quickselect (fuel : nat) (r n length : nat) : M A unit :=
  match fuel with
  | 0 => nofuel
  | S fuel =>
    assert (n <? length) ;;
    if n =? 0 then
      let* pivot := loop (S length) (fun '(n, pivot) =>
        if n <? length then
          let* c := less (r + n) (r + pivot) in
          ret (inl (S n, if (c : bool) then n else pivot))
        else ret (inr pivot)) (1, 0) in
      swap r (r + pivot)
    else if n + 1 =? length then
      let* pivot := loop (S length) (fun '(n, pivot) =>
        if n <? length then
          let* c := less (r + pivot) (r + n) in
          ret (inl (S n, if (c : bool) then n else pivot))
        else ret (inr pivot)) (1, 0) in
      swap (r + pivot) (r + (length - 1))
    else
      let* pivot := (if length <=? 16 then
          let* p := pivot_partition r n length in ret (p - r)
        else if n <=? length / 6 then median_of_minima (adaptive_quickselect fuel) r n length
        else if length - n <=? n / 5 then median_of_maxima (adaptive_quickselect fuel) r n length
        else median_of_ninthers (adaptive_quickselect fuel) r length) in
      if pivot =? n then ret tt
      else if n <? pivot then adaptive_quickselect fuel r n pivot
      else
        let pivot := S pivot in
        adaptive_quickselect fuel (r + pivot) (n - pivot) (length - pivot)
  end.

(** detail/adaptive_quickselect.h:476-486. *)
Definition median_of_ninthers_select (begin mid end_ : nat) : M A nat :=
  (if mid =? end_ then ret tt else adaptive_quickselect (S (end_ - begin)) begin (mid - begin) (end_ - begin)) ;;
  ret mid.

(** detail/nth_element.h:24-73. *)
Definition nth_element (cat : category) (first last nth_pos size : nat) : M A nat :=
  match cat with
  | Forward => introselect comp proj false first last nth_pos size
  | Bidirectional => introselect comp proj true first last nth_pos size
  | RandomAccess => median_of_ninthers_select first (first + nth_pos) last
  end.

(** detail/swap_ranges.h:53-126, with the assertions of lines 110-115. *)
Definition swap_ranges_inner (first1 last1 first2 : nat) : M A nat :=
  let last2 := first2 + (last1 - first1) in
  assert (first1 <=? last1) ;;
  assert (negb ((first1 <=? first2) && (first2 <? last1))) ;;
  assert (negb ((first1 <? last2) && (last2 <=? last1))) ;;
  swap_ranges first1 last1 first2.

(** detail/quick_merge_sort.h:29-68. *)
Definition internal_half_inplace_merge (first1 last1 first2 last2 result size_left : nat) : M A unit :=
  let* (first1, first2, result) := loop (S size_left) (fun '(first1, first2, result, size_left) =>
    if size_left =? 0 then ret (inr (first1, first2, result)) else
    assert (negb (first1 =? last1)) ;;
    assert (negb (first2 =? last2)) ;;
    let* c := less first2 first1 in
    if c then swap result first2 ;; ret (inl (first1, S first2, S result, size_left - 1))
    else swap result first1 ;; ret (inl (S first1, first2, S result, size_left - 1)))
    (first1, first2, result, size_left) in
  loop (S ((last1 - first1) + (last2 - first2))) (fun '(first1, first2, result) =>
    if first1 =? last1 then ret (inr tt) else
    if first2 =? last2 then swap_ranges_inner first1 last1 result ;; ret (inr tt) else
    let* c := less first2 first1 in
    if c then swap result first2 ;; ret (inl (first1, S first2, S result))
    else swap result first1 ;; ret (inl (S first1, first2, S result))) (first1, first2, result).

(** detail/quick_merge_sort.h:70-82. *)
Definition internal_buffered_inplace_merge (first middle last size_left buffer : nat) : M A unit :=
  let* buffer_end := swap_ranges_inner first middle buffer in
  internal_half_inplace_merge buffer buffer_end middle last first size_left.

(** detail/quick_merge_sort.h:27. *)
Definition qmsort_limit := 32.

(** detail/quick_merge_sort.h:84-122.  [mid_value] is read at every comparison. *)
Fixpoint internal_mergesort (bidi : bool) (fuel first last size buffer : nat) : M A unit :=
  match fuel with
  | 0 => nofuel
  | S fuel =>
    if size <=? qmsort_limit then small_sort comp proj bidi first last else
    let size_left := size / 2 in
    let middle := first + size_left in
    internal_mergesort bidi fuel first middle size_left buffer ;;
    internal_mergesort bidi fuel middle last (size - size_left) buffer ;;
    let* (first, size_left) := loop (S size_left) (fun '(first, size_left) =>
      if first =? middle then ret (inr (first, size_left)) else
      let* c := less middle first in
      if negb c then ret (inl (S first, size_left - 1)) else ret (inr (first, size_left))) (first, size_left) in
    if first =? middle then ret tt else
    internal_buffered_inplace_merge first middle last size_left buffer
  end.

(** detail/quick_merge_sort.h:124-151. *)
Definition quick_merge_sort (cat : category) (first last size : nat) : M A unit :=
  let bidi := match cat with Forward => false | _ => true end in
  let* first := loop (S size) (fun '(first, size) =>
    if qmsort_limit <? size then
      let size_left := 2 * (size / 3) - 2 in
      let* pivot := nth_element cat first last size_left size in
      internal_mergesort bidi (S size_left) first pivot size_left pivot ;;
      let first := match cat with RandomAccess => first + size_left | _ => pivot end in
      ret (inl (first, size - size_left))
    else ret (inr first)) (first, size) in
  small_sort comp proj bidi first last.

(** sorters/quick_merge_sorter.h:31-82. *)
Definition quick_merge_sorter (cat : category) : range_prog A := fun first last => quick_merge_sort cat first last (last - first).
End Model.
