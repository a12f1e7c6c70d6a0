(** spreadsort on integral keys. *)
From Coq Require Import List Arith ZArith Bool.
From Verif Require Import Lang.Mem Model.Basic Model.Pdq Model.Indirect Model.Counting Model.Ska.
Import ListNotations.
Local Open Scope nat_scope.

(** std::size_t, the type of the sizes; it is also std::uintmax_t. *)
Definition size_type : int_type := {| bits := 64; signed := false |}.
(** unsigned. *)
Definition uint32 : int_type := {| bits := 32; signed := false |}.

(** detail/spreadsort/detail/constants.h:27-51. *)
Definition max_splits : Z := 11%Z.
Definition max_finishing_splits : Z := (max_splits + 1)%Z.
Definition int_log_mean_bin_size : Z := 2%Z.
Definition int_log_min_split_count : Z := 9%Z.
Definition int_log_finishing_count : Z := 31%Z.
Definition min_sort_size : nat := 10 * 10 * 10.

(** detail/spreadsort/detail/common.h:39-49, on a std::size_t.  [k] is how far [result] is from the number of bits. *)
Fixpoint rough_log_2_from (k : nat) (input result : Z) : Z :=
  match k with
  | 0 => result
  | S k => if (input / 2 ^ result =? 0)%Z then result else rough_log_2_from k input (result + 1)
  end.
Definition rough_log_2_size (input : Z) : Z := rough_log_2_from 64 input 0.

(** detail/spreadsort/detail/common.h:94-95: the loop that adds increasing numbers to [offset]. *)
Fixpoint split_count (fuel : nat) (log_range offset result : Z) : Z :=
  match fuel with
  | 0 => result
  | S fuel => if (offset <? log_range)%Z then split_count fuel log_range (offset + (result + 1)) (result + 1) else result
  end.

(** detail/spreadsort/detail/common.h:56-111.  The loop of lines 94-95 adds at least one to [offset] each time and [log_range] is at most 64. *)
Definition get_min_count (log_mean_bin_size log_min_split_count log_finishing_count log_range : Z) : Z :=
  (let min_size := log_mean_bin_size + log_min_split_count in
   if (log_finishing_count <? min_size) && ((log_range <=? min_size) && (log_range <=? max_splits)) then
     if log_range <=? log_finishing_count then 2 ^ log_finishing_count else 2 ^ log_range
   else
   let base_iterations := max_splits - log_min_split_count in
   let base_range := (base_iterations + 1) * (max_splits + log_min_split_count) / 2 + log_mean_bin_size in
   if log_range <? base_range then
     let result := split_count 64 log_range min_size log_min_split_count in
     if 64 <=? result + log_mean_bin_size then 2 ^ 63 else 2 ^ (result + log_mean_bin_size)
   else
   let remainder := log_range - base_range in
   let bit_length := (max_splits - 1 + remainder) / max_splits + base_iterations + min_size in
   if 64 <=? bit_length then 2 ^ 63 else 2 ^ bit_length)%Z.

(** detail/spreadsort/detail/integer_sort.h:75-94. *)
Definition get_log_divisor (log_mean_bin_size count log_range : Z) : Z :=
  (let log_divisor := log_range - rough_log_2_size count in
   if (log_divisor <=? 0) && (log_range <=? max_finishing_splits) then 0 else
   let log_divisor := log_divisor + log_mean_bin_size in
   if max_splits <? log_range - log_divisor then log_range - max_splits else log_divisor)%Z.

Section Model.
(** The type of the keys. *)
Context {A : Type} (t : int_type) (proj : A -> Z) (branchless : bool).

(** detail/spreadsort/detail/integer_sort.h:45-73.  The positions of the maximum and the minimum; nothing if the range is sorted. *)
Definition is_sorted_or_find_extremes (first last : nat) : M A (option (nat * nat)) :=
  let* unsorted := loop (S (last - first)) (fun current =>
    let* c := less_at Z.ltb proj (S current) current in
    if (c : bool) then ret (inr (Some current)) else
    let current := S current in
    if current =? last - 1 then ret (inr None) else ret (inl current)) first in
  match unsorted with
  | None => ret None
  | Some current =>
    let* r := loop (S (last - first)) (fun '(current, max, min) =>
      let current := S current in
      if current <? last then
        let* c := less_at Z.ltb proj max current in
        if (c : bool) then ret (inl (current, current, min)) else
        let* c := less_at Z.ltb proj current min in
        if (c : bool) then ret (inl (current, max, current)) else ret (inl (current, max, min))
      else ret (inr (max, min))) (current, current, first) in
    ret (Some r)
  end.

(** The operator >> on a key, after the promotion.  A shift by as many bits as the type has, or more, is undefined.  The shift of a negative
    value is arithmetic (it is implementation-defined before C++20). *)
Definition shift_right (z k : Z) : M A Z :=
  if ((0 <=? k) && (k <? bits (promoted t)))%Z then ret (z / 2 ^ k)%Z else ub.

(** detail/spreadsort/detail/integer_sort.h:126, 145, 147, 153: the number of the bin of an element.  A negative number is an index out of the array. *)
Definition bin_of (log_divisor div_min : Z) (x : A) : M A nat :=
  let* s := shift_right (proj x) log_divisor in
  let* d := arith t (s - div_min) in
  if (d <? 0)%Z then ub else ret (Z.to_nat d).

(** detail/spreadsort/detail/integer_sort.h:124-128.  The array [bin_sizes] holds 2 ^ max_finishing_splits numbers; size_bins (common.h:113-130)
    sets the first [bin_count] to 0.  Simplified: the list holds those only, so that the use of another one is undefined. *)
Definition count_bins (log_divisor div_min : Z) (bin_count first last : nat) : M A (list nat) :=
  if (2 ^ max_finishing_splits <? Z.of_nat bin_count)%Z then ub else
  loop (S (last - first)) (fun '(current, bin_sizes) =>
    if current =? last then ret (inr bin_sizes) else
    let* x := get current in
    let* b := bin_of log_divisor div_min x in
    let* c := rd bin_sizes b in
    let* bin_sizes := wr bin_sizes b (S c) in
    ret (inl (S current, bin_sizes))) (first, repeat 0 bin_count).

(** detail/spreadsort/detail/integer_sort.h:129-132.  The bins are at [cache_offset] in the vector; an iterator that was not assigned is [None]. *)
Definition assign_bins (first bin_count cache_offset : nat) (bin_sizes : list nat) (cache : list (option nat)) : M A (list (option nat)) :=
  let* cache := wr cache cache_offset (Some first) in
  loop (S bin_count) (fun '(u, cache) =>
    if u <? bin_count - 1 then
      let* b := rd_init cache (cache_offset + u) in
      let* c := rd bin_sizes u in
      let* cache := wr cache (cache_offset + (u + 1)) (Some (b + c)) in
      ret (inl (S u, cache))
    else ret (inr cache)) (0, cache).

(** detail/spreadsort/detail/integer_sort.h:143-166: the element at [current] is replaced until it is in the bin [local_bin]. *)
Definition replace_element (log_divisor div_min : Z) (first last cache_offset local_bin current : nat) (cache : list (option nat)) : M A (list (option nat)) :=
  loop (S (last - first)) (fun cache =>
    let* x := get current in
    let* target_bin := bin_of log_divisor div_min x in
    if target_bin =? local_bin then ret (inr cache) else
    let* b := rd_init cache (cache_offset + target_bin) in
    let* cache := wr cache (cache_offset + target_bin) (Some (S b)) in
    let* y := get b in
    let* b_bin := bin_of log_divisor div_min y in
    if negb (b_bin =? local_bin) then
      let* c := rd_init cache (cache_offset + b_bin) in
      let* cache := wr cache (cache_offset + b_bin) (Some (S c)) in
      let* tmp := take c in
      move_to b c ;;
      move_to current b ;;
      put current tmp ;;
      ret (inl cache)
    else
      let* tmp := take b in
      move_to current b ;;
      put current tmp ;;
      ret (inl cache)) cache.

(** detail/spreadsort/detail/integer_sort.h:134-170. *)
Definition fill_bins (log_divisor div_min : Z) (first last bin_count cache_offset : nat) (bin_sizes : list nat) (cache : list (option nat)) : M A (list (option nat)) :=
  let* cache := loop (S bin_count) (fun '(u, nextbinstart, cache) =>
    if u <? bin_count - 1 then
      let* c := rd bin_sizes u in
      let nextbinstart := nextbinstart + c in
      let* b := rd_init cache (cache_offset + u) in
      let* cache := loop (S (last - first)) (fun '(current, cache) =>
        if current <? nextbinstart then
          let* cache := replace_element log_divisor div_min first last cache_offset u current cache in
          ret (inl (S current, cache))
        else ret (inr cache)) (b, cache) in
      let* cache := wr cache (cache_offset + u) (Some nextbinstart) in
      ret (inl (S u, nextbinstart, cache))
    else ret (inr cache)) (0, first, cache) in
  wr cache (cache_offset + (bin_count - 1)) (Some last).

Section Rec.
(** The recursive call: range, vector, offset in the vector. *)
Variable rec : nat -> nat -> list (option nat) -> nat -> M A (list (option nat)).

(** detail/spreadsort/detail/integer_sort.h:180-198; [n] iterations from [u] on. *)
Fixpoint sort_bins (max_count : Z) (n u cache_end lastPos : nat) (cache : list (option nat)) : M A (list (option nat)) :=
  match n with
  | 0 => ret cache
  | S n =>
    let* e := rd_init cache u in
    let count := e - lastPos in
    let* cache :=
      if count <? 2 then ret cache
      else if (Z.of_nat count <? max_count)%Z then pdqsort Z.ltb proj true branchless lastPos e ;; ret cache
      else rec lastPos e cache cache_end in
    let* e := rd_init cache u in
    sort_bins max_count n (S u) cache_end e cache
  end.
End Rec.

(** detail/spreadsort/detail/integer_sort.h:96-199. *)
Fixpoint spreadsort_rec (fuel : nat) (first last : nat) (cache : list (option nat)) (cache_offset : nat) : M A (list (option nat)) :=
  match fuel with
  | 0 => nofuel
  | S fuel =>
    let* extremes := is_sorted_or_find_extremes first last in
    match extremes with
    | None => ret cache
    | Some (max, min) =>
      let* x := get max in
      let* y := get min in
      let* range := arith t (proj x - proj y) in
      let log_divisor := get_log_divisor int_log_mean_bin_size (Z.of_nat (last - first)) (rough_log_2_size (convert size_type range)) in
      let* div_min := shift_right (proj y) log_divisor in
      let* div_max := shift_right (proj x) log_divisor in
      let* d := arith t (div_max - div_min) in
      let bin_count := Z.to_nat (convert uint32 (convert uint32 d + 1)) in
      let cache_end := cache_offset + bin_count in
      let cache := cache ++ repeat None (cache_end - length cache) in
      let* bin_sizes := count_bins log_divisor div_min bin_count first last in
      let* cache := assign_bins first bin_count cache_offset bin_sizes cache in
      let* cache := fill_bins log_divisor div_min first last bin_count cache_offset bin_sizes cache in
      if (log_divisor =? 0)%Z then ret cache else
      let max_count := get_min_count int_log_mean_bin_size int_log_min_split_count int_log_finishing_count log_divisor in
      sort_bins (spreadsort_rec fuel) max_count bin_count cache_offset cache_end first cache
    end
  end.

(** detail/spreadsort/integer_sort.h:82-95, detail/spreadsort/detail/integer_sort.h:201-233, sorters/spread_sorter/integer_spread_sorter.h:31-68.
    The divisor decreases at each level of the recursion. *)
Definition integer_spread_sorter : range_prog A := fun first last =>
  if last - first <? min_sort_size then pdqsort Z.ltb proj true branchless first last else
  let* _ := spreadsort_rec (S 64) first last [] 0 in ret tt.
End Model.
