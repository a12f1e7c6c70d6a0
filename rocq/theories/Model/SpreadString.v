(** spreadsort on strings. *)
From Coq Require Import List Arith ZArith Bool.
From Verif Require Import Lang.Mem Model.Basic Model.Pdq Model.Indirect Model.Counting Model.Comparators Model.Ska Model.Spread.
Import ListNotations.
Local Open Scope nat_scope.

(** Unsigned_char_type is an unsigned integer type of [char_size] bytes, 1 or 2.  A string is the list of its characters, integers that may be negative;
    static_cast<Unsigned_char_type>. *)
Definition uchar (char_size : nat) (c : Z) : nat := Z.to_nat (c mod 2 ^ (8 * Z.of_nat char_size)).
(** operator< of std::string and of std::wstring: the characters are compared as unsigned integers (char_traits<char>::lt; wchar_t is unsigned where
    it has two bytes). *)
Definition string_less (char_size : nat) (x y : list Z) : bool := lexicographical_compare (fun a b => uchar char_size a <? uchar char_size b) x y.
Definition string_greater (char_size : nat) (x y : list Z) : bool := string_less char_size y x.

Section Model.
Context {A : Type} (char_size : nat) (proj : A -> list Z) (branchless : bool).
Local Notation size x := (length (proj x)).

(** proj(x)[i]; the position size() (a null character in a std::string) is undefined, as in a std::string_view. *)
Definition char_at (x : A) (i : nat) : M A nat :=
  match nth_error (proj x) i with Some c => ret (uchar char_size c) | None => ub end.

(** std::memcmp(x.data() + offset, y.data() + offset, count) != 0. *)
Fixpoint differ (count : nat) (x y : A) (offset : nat) : M A bool :=
  match count with
  | 0 => ret false
  | S count =>
    let* a := char_at x offset in
    let* b := char_at y offset in
    let* r := differ count x y (S offset) in
    ret (negb (a =? b) || r)
  end.

(** detail/spreadsort/detail/string_sort.h:64-89: [inl] is the value of char_offset if the function returns, [inr] the value of step_size after the loop.
    size() is greater than nextOffset at line 71 (proved), so that the truncated subtraction is that of the code. *)
Definition update_step (first finish char_offset next_offset step_size : nat) : M A (nat + nat) :=
  loop (S (finish - first + step_size)) (fun '(curr, step_size) =>
    let* x := get curr in
    if char_offset <? size x then
      let short := size x <=? next_offset + step_size in
      let step_size := if short then size x - next_offset - 1 else step_size in
      if short && (step_size <? 1) then ret (inr (inl next_offset)) else
      let* y := get first in
      let* d := differ step_size x y next_offset in
      if (d : bool) then
        if step_size =? 1 then ret (inr (inl next_offset))
        else ret (inl (curr, if 4 <? step_size then 4 else 1))
      else if S curr =? finish then ret (inr (inr step_size)) else ret (inl (S curr, step_size))
    else if S curr =? finish then ret (inr (inr step_size)) else ret (inl (S curr, step_size))) (first, step_size).

(** detail/spreadsort/detail/string_sort.h:51-92.  The first string bounds the number of steps. *)
Definition update_offset (first finish char_offset : nat) : M A nat :=
  let* x := get first in
  loop (S (size x)) (fun '(next_offset, step_size) =>
    let* r := update_step first finish char_offset next_offset step_size in
    match r with
    | inl char_offset => ret (inr char_offset)
    | inr step_size => ret (inl (next_offset + step_size, step_size))
    end) (char_offset, 64 / char_size).

(** detail/spreadsort/detail/string_sort.h:94-123 and 125-154: the strings are compared from [char_offset] on. *)
Fixpoint compare_from (less : nat -> nat -> bool) (count : nat) (x y : A) (u : nat) : bool :=
  match count with
  | 0 => less (size x) (size y)
  | S count =>
    let a := uchar char_size (nth u (proj x) 0%Z) in
    let b := uchar char_size (nth u (proj y) 0%Z) in
    if negb (a =? b) then less a b else compare_from less count x y (S u)
  end.
Definition offset_less_than (char_offset : nat) (x y : A) : bool :=
  compare_from Nat.ltb (Nat.min (size x) (size y) - char_offset) x y char_offset.
Definition offset_greater_than (char_offset : nat) (x y : A) : bool :=
  compare_from (fun a b => b <? a) (Nat.min (size x) (size y) - char_offset) x y char_offset.

(** bin_count, which is also max_size (detail/spreadsort/detail/string_sort.h:182-188, 295-302); there is one more bin for the strings that have ended. *)
Definition bin_count : nat := 2 ^ (char_size * 8).

(** detail/spreadsort/detail/string_sort.h:170-173, 281-286.  Nothing if all the strings have ended. *)
Definition skip_ended (first last char_offset : nat) : M A (option nat) :=
  loop (S (last - first)) (fun first =>
    let* x := get first in
    if size x <=? char_offset then
      if S first =? last then ret (inr None) else ret (inl (S first))
    else ret (inr (Some first))) first.
(** detail/spreadsort/detail/string_sort.h:174-177, 287-289. *)
Definition last_unended (first last char_offset : nat) : M A nat :=
  loop (S (last - first)) (fun finish =>
    let* x := get finish in
    if size x <=? char_offset then if finish =? 0 then ub else ret (inl (finish - 1)) else ret (inr (S finish))) (last - 1).

(** The loops of detail/spreadsort/detail/string_sort.h:190-198 and 305-313; size_bins has set the sizes to 0. *)
Definition count_strings (target : A -> M A nat) (first last : nat) : M A (list nat) :=
  loop (S (last - first)) (fun '(current, bin_sizes) =>
    if current =? last then ret (inr bin_sizes) else
    let* x := get current in
    let* b := target x in
    let* c := rd bin_sizes b in
    let* bin_sizes := wr bin_sizes b (S c) in
    ret (inl (S current, bin_sizes))) (first, repeat 0 (bin_count + 1)).

(** The loops of detail/spreadsort/detail/string_sort.h:212-222, 229-244, 326-336, 344-360: the elements of the bin [local_bin] are put in place; a
    string that is not in its bin is swapped with the first one of its bin that is not known to be in place. *)
Definition place_strings (target : A -> M A nat) (first last cache_offset local_bin next_bin_start : nat) (cache : list (option nat)) : M A (list (option nat)) :=
  let* b := rd_init cache (cache_offset + local_bin) in
  let* cache := loop (S (last - first)) (fun '(current, cache) =>
    if current <? next_bin_start then
      let* cache := loop (S (last - first)) (fun cache =>
        let* x := get current in
        let* target_bin := target x in
        if target_bin =? local_bin then ret (inr cache) else
        let* b := rd_init cache (cache_offset + target_bin) in
        swap current b ;;
        let* cache := wr cache (cache_offset + target_bin) (Some (S b)) in
        ret (inl cache)) cache in
      ret (inl (S current, cache))
    else ret (inr cache)) (b, cache) in
  wr cache (cache_offset + local_bin) (Some next_bin_start).

(** The loops of detail/spreadsort/detail/string_sort.h:225-226 and 340-341; [shift] is 1 in the first, 0 in the second. *)
Definition find_last_bin (shift : nat) (bin_sizes : list nat) : M A nat :=
  loop (S bin_count) (fun last_bin =>
    if last_bin =? 0 then ret (inr last_bin) else
    let* c := rd bin_sizes (last_bin + shift) in
    if c =? 0 then ret (inl (last_bin - 1)) else ret (inr last_bin)) (bin_count - 1).

(** The loops of detail/spreadsort/detail/string_sort.h:228-245 and 343-361. *)
Definition place_chars (target : A -> M A nat) (shift first last cache_offset last_bin next_bin_start : nat) (bin_sizes : list nat) (cache : list (option nat)) : M A (list (option nat)) :=
  loop (S last_bin) (fun '(u, next_bin_start, cache) =>
    if u <? last_bin then
      let* c := rd bin_sizes (u + shift) in
      let next_bin_start := next_bin_start + c in
      let* cache := place_strings target first last cache_offset (u + shift) next_bin_start cache in
      ret (inl (S u, next_bin_start, cache))
    else ret (inr cache)) (0, next_bin_start, cache).

(** The loops of detail/spreadsort/detail/string_sort.h:250-265 and 366-381; [order]: the values of the variable of the loop. *)
Fixpoint sort_string_bins (less : A -> A -> bool) (rec : nat -> nat -> list (option nat) -> nat -> M A (list (option nat))) (order : list nat) (cache_end lastPos : nat) (cache : list (option nat)) : M A (list (option nat)) :=
  match order with
  | [] => ret cache
  | u :: order =>
    let* e := rd_init cache u in
    let count := e - lastPos in
    let* cache :=
      if count <? 2 then ret cache
      else if count <? bin_count then pdqsort less (fun x => x) true branchless lastPos e ;; ret cache
      else rec lastPos e cache cache_end in
    let* e := rd_init cache u in
    sort_string_bins less rec order cache_end e cache
  end.

(** The bins of detail/spreadsort/detail/string_sort.h:191-197; lines 215-216; lines 235-238. *)
Definition char_bin (char_offset : nat) (x : A) : M A nat := let* c := char_at x char_offset in ret (S c).
Definition string_bin (char_offset : nat) (x : A) : M A nat := if size x <=? char_offset then ret 0 else char_bin char_offset x.
(** The bins of detail/spreadsort/detail/string_sort.h:307-312; lines 329-330; lines 350-354. *)
Definition reverse_char_bin (char_offset : nat) (x : A) : M A nat :=
  let* c := char_at x char_offset in if bin_count - 1 <? c then ub else ret (bin_count - 1 - c).
Definition reverse_string_bin (char_offset : nat) (x : A) : M A nat := if size x <=? char_offset then ret bin_count else reverse_char_bin char_offset x.

(** detail/spreadsort/detail/string_sort.h:156-266. *)
Fixpoint string_sort_rec (fuel : nat) (first last char_offset : nat) (cache : list (option nat)) (cache_offset : nat) : M A (list (option nat)) :=
  match fuel with
  | 0 => nofuel
  | S fuel =>
    let* r := skip_ended first last char_offset in
    match r with
    | None => ret cache
    | Some first =>
      let* finish := last_unended first last char_offset in
      let* char_offset := update_offset first finish char_offset in
      let membin_count := bin_count + 1 in
      let cache_end := cache_offset + membin_count in
      let cache := cache ++ repeat None (cache_end - length cache) in
      let* bin_sizes := count_strings (string_bin char_offset) first last in
      let* cache := assign_bins first membin_count cache_offset bin_sizes cache in
      let* c0 := rd bin_sizes 0 in
      let next_bin_start := first + c0 in
      let* cache := place_strings (string_bin char_offset) first last cache_offset 0 next_bin_start cache in
      let* last_bin := find_last_bin 1 bin_sizes in
      let* cache := place_chars (char_bin char_offset) 1 first last cache_offset last_bin next_bin_start bin_sizes cache in
      let* cache := wr cache (cache_offset + 1 + last_bin) (Some last) in
      let* lastPos := rd_init cache cache_offset in
      sort_string_bins (offset_less_than (char_offset + 1)) (fun first last cache cache_offset => string_sort_rec fuel first last (char_offset + 1) cache cache_offset)
        (seq (cache_offset + 1) (last_bin + 1)) cache_end lastPos cache
    end
  end.

(** detail/spreadsort/detail/string_sort.h:268-382. *)
Fixpoint reverse_string_sort_rec (fuel : nat) (first last char_offset : nat) (cache : list (option nat)) (cache_offset : nat) : M A (list (option nat)) :=
  match fuel with
  | 0 => nofuel
  | S fuel =>
    let* r := skip_ended first last char_offset in
    match r with
    | None => ret cache
    | Some curr =>
      let* last := last_unended curr last char_offset in
      let* char_offset := update_offset curr last char_offset in
      let membin_count := bin_count + 1 in
      let cache_end := cache_offset + membin_count in
      let cache := cache ++ repeat None (cache_end - length cache) in
      let* bin_sizes := count_strings (reverse_string_bin char_offset) first last in
      let* cache := assign_bins first membin_count cache_offset bin_sizes cache in
      let* lastFull := rd_init cache (cache_offset + bin_count) in
      let* cache := place_strings (reverse_string_bin char_offset) first last cache_offset bin_count last cache in
      let* last_bin := find_last_bin 0 bin_sizes in
      let* cache := place_chars (reverse_char_bin char_offset) 0 first last cache_offset last_bin first bin_sizes cache in
      let* cache := wr cache (cache_offset + last_bin) (Some lastFull) in
      sort_string_bins (offset_greater_than (char_offset + 1)) (fun first last cache cache_offset => reverse_string_sort_rec fuel first last (char_offset + 1) cache cache_offset)
        (seq cache_offset (last_bin + 1)) cache_end first cache
    end
  end.

(** The length of the longest string, which bounds the depth of the recursion. *)
Definition longest (first last : nat) : M A nat :=
  loop (S (last - first)) (fun '(current, n) =>
    if current =? last then ret (inr n) else
    let* x := get current in
    ret (inl (S current, Nat.max n (size x)))) (first, 0).

(** detail/spreadsort/string_sort.h:82-94, detail/spreadsort/detail/string_sort.h:384-395, sorters/spread_sorter/string_spread_sorter.h:38-92. *)
Definition string_spread_sorter : range_prog A := fun first last =>
  if last - first <? min_sort_size then pdqsort (string_less char_size) proj true branchless first last else
  let* n := longest first last in
  let* _ := string_sort_rec (S n) first last 0 [] 0 in
  ret tt.
(** The same with std::greater<> (detail/spreadsort/string_sort.h:145-159, detail/spreadsort/detail/string_sort.h:397-408, sorters/spread_sorter/string_spread_sorter.h:94-203). *)
Definition reverse_string_spread_sorter : range_prog A := fun first last =>
  if last - first <? min_sort_size then pdqsort (string_greater char_size) proj true branchless first last else
  let* n := longest first last in
  let* _ := reverse_string_sort_rec (S n) first last 0 [] 0 in
  ret tt.
End Model.
