(** spreadsort on floating point keys. *)
From Coq Require Import List Arith ZArith Bool.
From Verif Require Import Lang.Mem Model.Basic Model.Pdq Model.Indirect Model.Counting Model.Comparators Model.Ska Model.Ieee Model.Spread.
Import ListNotations.
Local Open Scope nat_scope.

(** detail/spreadsort/detail/constants.h:41-49. *)
Definition float_log_mean_bin_size : Z := 2%Z.
Definition float_log_min_split_count : Z := 8%Z.
Definition float_log_finishing_count : Z := 4%Z.

(** Div_type: the signed integer type of the same size (detail/spreadsort/detail/float_sort.h:375, 390). *)
Definition div_type (f : format) : int_type := {| bits := width f; signed := true |}.
(** memcpy_cast<Div_type> (detail/memcpy_cast.h:19-32). *)
Definition cast {f} (x : number f) : Z := convert (div_type f) (pattern x).
(** The built-in operator>=: false as soon as one operand is a NaN. *)
Definition fp_ge (x y : fp) : bool := negb (isnan x) && negb (isnan y) && negb (fp_lt x y).

Section Model.
Context {A : Type} {fmt : format} (proj : A -> number fmt) (branchless : bool).
Local Notation t := (div_type fmt).
Local Notation key := (fun x => cast (proj x)).

(** detail/spreadsort/detail/float_sort.h:105-128: is the range sorted, the maximum and the minimum of the casts. *)
Definition float_extremes (first last : nat) : M A (bool * Z * Z) :=
  let* x := get first in
  loop (S (last - first)) (fun '(current, prev, sorted, max, min) =>
    let current := S current in
    if current <? last then
      let* x := get current in
      let* y := get prev in
      let value := cast (proj x) in
      let sorted := sorted && fp_ge (decode fmt (pattern (proj x))) (decode fmt (pattern (proj y))) in
      let prev := current in
      if (max <? value)%Z then ret (inl (current, prev, sorted, value, min))
      else if (value <? min)%Z then ret (inl (current, prev, sorted, max, value))
      else ret (inl (current, prev, sorted, max, min))
    else ret (inr (sorted, max, min))) (first, first, true, cast (proj x), cast (proj x)).

(** detail/spreadsort/detail/float_sort.h:138-159, 204-225, 269-290: the lines that the three functions have in common.  Nothing if the range
    is sorted; else log_divisor, div_min, bin_count, bin_sizes and the vector. *)
Definition prepare (first last : nat) (cache : list (option nat)) (cache_offset : nat) : M A (option (Z * Z * nat * list nat * list (option nat))) :=
  let* (sorted, max, min) := float_extremes first last in
  if (sorted : bool) then ret None else
  let* range := arith t (max - min) in
  let log_range := rough_log_2_size (convert size_type (convert {| bits := width fmt; signed := false |} range)) in
  let log_divisor := get_log_divisor float_log_mean_bin_size (Z.of_nat (last - first)) log_range in
  let* div_min := shift_right t min log_divisor in
  let* div_max := shift_right t max log_divisor in
  let* d := arith t (div_max - div_min) in
  let bin_count := Z.to_nat (convert uint32 (convert uint32 d + 1)) in
  let cache := cache ++ repeat None (cache_offset + bin_count - length cache) in
  let* bin_sizes := count_bins t key log_divisor div_min bin_count first last in
  ret (Some (log_divisor, div_min, bin_count, bin_sizes, cache)).

(** detail/spreadsort/detail/float_sort.h:50-90; the loop of lines 64-87 is the one of integer_sort.h:143-166. *)
Definition inner_float_swap_loop (log_divisor div_min : Z) (first last cache_offset ii nextbinstart : nat) (cache : list (option nat)) : M A (list (option nat)) :=
  let* b := rd_init cache (cache_offset + ii) in
  let* cache := loop (S (last - first)) (fun '(current, cache) =>
    if current <? nextbinstart then
      let* cache := replace_element t key log_divisor div_min first last cache_offset ii current cache in
      ret (inl (S current, cache))
    else ret (inr cache)) (b, cache) in
  wr cache (cache_offset + ii) (Some nextbinstart).

(** detail/spreadsort/detail/float_sort.h:226-228; [k] is [ii + 1]. *)
Definition assign_reversed (first bin_count cache_offset : nat) (bin_sizes : list nat) (cache : list (option nat)) : M A (list (option nat)) :=
  let* cache := wr cache (cache_offset + (bin_count - 1)) (Some first) in
  loop (S bin_count) (fun '(k, cache) =>
    if 0 <? k then
      let* b := rd_init cache (cache_offset + k) in
      let* c := rd bin_sizes k in
      let* cache := wr cache (cache_offset + (k - 1)) (Some (b + c)) in
      ret (inl (k - 1, cache))
    else ret (inr cache)) (bin_count - 1, cache).

(** detail/spreadsort/detail/float_sort.h:92-103, 230-237. *)
Definition fill_reversed (log_divisor div_min : Z) (first last bin_count cache_offset : nat) (bin_sizes : list nat) (cache : list (option nat)) : M A (list (option nat)) :=
  let* cache := loop (S bin_count) (fun '(ii, nextbinstart, cache) =>
    if 0 <? ii then
      let* c := rd bin_sizes ii in
      let nextbinstart := nextbinstart + c in
      let* cache := inner_float_swap_loop log_divisor div_min first last cache_offset ii nextbinstart cache in
      ret (inl (ii - 1, nextbinstart, cache))
    else ret (inr cache)) (bin_count - 1, first, cache) in
  wr cache cache_offset (Some last).

(** The loops of detail/spreadsort/detail/float_sort.h:180-191, 247-258, 335-348 and 350-361.  [order]: the values that the variable of the loop takes.  The result has the last
    value of lastPos. *)
Fixpoint sort_bins_in (rec : nat -> nat -> list (option nat) -> nat -> M A (list (option nat))) (max_count : Z) (order : list nat) (cache_end lastPos : nat) (cache : list (option nat)) : M A (nat * list (option nat)) :=
  match order with
  | [] => ret (lastPos, cache)
  | u :: order =>
    let* e := rd_init cache u in
    let count := e - lastPos in
    let* cache :=
      if count <? 2 then ret cache
      else if (Z.of_nat count <? max_count)%Z then pdqsort less proj true branchless lastPos e ;; ret cache
      else rec lastPos e cache cache_end in
    let* e := rd_init cache u in
    sort_bins_in rec max_count order cache_end e cache
  end.

Definition float_min_count (log_divisor : Z) : Z := get_min_count float_log_mean_bin_size float_log_min_split_count float_log_finishing_count log_divisor.

(** detail/spreadsort/detail/float_sort.h:130-192; lines 160-170 are those of integer_sort.h:129-170. *)
Fixpoint positive_float_sort_rec (fuel : nat) (first last : nat) (cache : list (option nat)) (cache_offset : nat) : M A (list (option nat)) :=
  match fuel with
  | 0 => nofuel
  | S fuel =>
    let* p := prepare first last cache cache_offset in
    match p with
    | None => ret cache
    | Some (log_divisor, div_min, bin_count, bin_sizes, cache) =>
      let* cache := assign_bins first bin_count cache_offset bin_sizes cache in
      let* cache := fill_bins t key log_divisor div_min first last bin_count cache_offset bin_sizes cache in
      if (log_divisor =? 0)%Z then ret cache else
      let* (_, cache) := sort_bins_in (positive_float_sort_rec fuel) (float_min_count log_divisor) (seq cache_offset bin_count) (cache_offset + bin_count) first cache in
      ret cache
    end
  end.

(** detail/spreadsort/detail/float_sort.h:194-259. *)
Fixpoint negative_float_sort_rec (fuel : nat) (first last : nat) (cache : list (option nat)) (cache_offset : nat) : M A (list (option nat)) :=
  match fuel with
  | 0 => nofuel
  | S fuel =>
    let* p := prepare first last cache cache_offset in
    match p with
    | None => ret cache
    | Some (log_divisor, div_min, bin_count, bin_sizes, cache) =>
      let* cache := assign_reversed first bin_count cache_offset bin_sizes cache in
      let* cache := fill_reversed log_divisor div_min first last bin_count cache_offset bin_sizes cache in
      if (log_divisor =? 0)%Z then ret cache else
      let* (_, cache) := sort_bins_in (negative_float_sort_rec fuel) (float_min_count log_divisor) (rev (seq cache_offset bin_count)) (cache_offset + bin_count) first cache in
      ret cache
    end
  end.

(** detail/spreadsort/detail/float_sort.h:293: the unary operator - and the conversion to unsigned. *)
Definition first_positive_bin (div_min : Z) : M A Z :=
  if (div_min <? 0)%Z then let* z := arith t (- div_min) in ret (convert uint32 z) else ret 0%Z.

(** detail/spreadsort/detail/float_sort.h:297-318, [cache_offset] being 0; [k] is [ii + 1].  [bin_sizes] becomes the ends of the bins. *)
Definition assign_ends (first bin_count first_positive : nat) (bin_sizes : list nat) (cache : list (option nat)) : M A (list nat * list (option nat)) :=
  let* (bin_sizes, cache) :=
    if 0 <? first_positive then
      let* cache := wr cache (first_positive - 1) (Some first) in
      let* (bin_sizes, cache) := loop (S first_positive) (fun '(k, bin_sizes, cache) =>
        if 0 <? k then
          let* c := rd bin_sizes k in
          let* cache := wr cache (k - 1) (Some (first + c)) in
          let* s := rd bin_sizes (k - 1) in
          let* bin_sizes := wr bin_sizes (k - 1) (s + c) in
          ret (inl (k - 1, bin_sizes, cache))
        else ret (inr (bin_sizes, cache))) (first_positive - 1, bin_sizes, cache) in
      if first_positive <? bin_count then
        let* c := rd bin_sizes 0 in
        let* cache := wr cache first_positive (Some (first + c)) in
        let* s := rd bin_sizes first_positive in
        let* bin_sizes := wr bin_sizes first_positive (s + c) in
        ret (bin_sizes, cache)
      else ret (bin_sizes, cache)
    else let* cache := wr cache 0 (Some first) in ret (bin_sizes, cache) in
  loop (S bin_count) (fun '(u, bin_sizes, cache) =>
    if u <? bin_count - 1 then
      let* c := rd bin_sizes u in
      let* cache := wr cache (u + 1) (Some (first + c)) in
      let* s := rd bin_sizes (u + 1) in
      let* bin_sizes := wr bin_sizes (u + 1) (s + c) in
      ret (inl (S u, bin_sizes, cache))
    else ret (inr (bin_sizes, cache))) (first_positive, bin_sizes, cache).

(** detail/spreadsort/detail/float_sort.h:320-326. *)
Definition fill_ends (log_divisor div_min : Z) (first last bin_count : nat) (bin_sizes : list nat) (cache : list (option nat)) : M A (list (option nat)) :=
  loop (S bin_count) (fun '(u, cache) =>
    if u <? bin_count then
      let* c := rd bin_sizes u in
      let* cache := inner_float_swap_loop log_divisor div_min first last 0 u (first + c) cache in
      ret (inl (S u, cache))
    else ret (inr cache)) (0, cache).

(** detail/spreadsort/detail/float_sort.h:261-362, [cache_offset] being 0 and the vector empty. *)
Definition float_sort_rec (fuel : nat) (first last : nat) : M A unit :=
  let* p := prepare first last [] 0 in
  match p with
  | None => ret tt
  | Some (log_divisor, div_min, bin_count, bin_sizes, cache) =>
    let* first_positive := first_positive_bin div_min in
    let first_positive := if (Z.of_nat bin_count <? first_positive)%Z then bin_count else Z.to_nat first_positive in
    let* (bin_sizes, cache) := assign_ends first bin_count first_positive bin_sizes cache in
    let* cache := fill_ends log_divisor div_min first last bin_count bin_sizes cache in
    if (log_divisor =? 0)%Z then ret tt else
    let max_count := float_min_count log_divisor in
    let* (lastPos, cache) := sort_bins_in (negative_float_sort_rec fuel) max_count (rev (seq 0 first_positive)) bin_count first cache in
    let* (_, _) := sort_bins_in (positive_float_sort_rec fuel) max_count (seq first_positive (bin_count - first_positive)) bin_count lastPos cache in
    ret tt
  end.

(** detail/spreadsort/float_sort.h:61-71, detail/spreadsort/detail/float_sort.h:364-392, sorters/spread_sorter/float_spread_sorter.h:30-68.
    The divisor decreases at each level of the recursion. *)
Definition float_spread_sorter : range_prog A := fun first last =>
  if last - first <? min_sort_size then pdqsort less proj true branchless first last else float_sort_rec (S 64) first last.
End Model.
