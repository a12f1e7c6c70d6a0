(** Measures of presortedness.

    The vectors of iterators are memories of their own, distinct from the collection; as in Model/Indirect.v an
    iterator is the pair of its address and of the element it points to (which does not change: the
    probes do not modify the collection).  difference_type is unbounded. *)
From Coq Require Import List Arith ZArith Bool.
From Verif Require Import Lang.Mem Model.Rotate Model.Search Model.Heap Model.Indirect.
Import ListNotations.
Local Open Scope nat_scope.

(** A computation on a local vector which does not modify it. *)
Definition on_vector {A E X} (v : list E) (c : M E X) : M A X := fun m =>
  match c (map Val v) with
  | Ok x _ => Ok x m
  | UB => UB
  | NoFuel => NoFuel
  end.

(** detail/equal_range.h:32-62. *)
Definition equal_range {E T} (comp : T -> T -> bool) (proj : E -> T) (first last : nat) (value : T) : M E (nat * nat) :=
  loop (S (last - first)) (fun '(first, last, len) =>
    if len =? 0 then ret (inr (first, first)) else
    let l2 := len / 2 in
    let m := first + l2 in
    let* x := get m in
    if comp (proj x) value then ret (inl (S m, last, len - (l2 + 1)))
    else if comp value (proj x) then ret (inl (first, m, l2))
    else
      let* l := lower_bound comp proj first m value in
      let* u := upper_bound comp proj (S m) last value in
      ret (inr (l, u))) (first, last, last - first).

Section CountInversions.
Context {E T : Type} (comp : T -> T -> bool) (proj : E -> T).

(** detail/count_inversions.h:39-42; the fuel allows for one read past the range. *)
Definition inversions_shrink (first middle last : nat) : M E nat :=
  loop (S (last - first)) (fun first =>
    let* x := get first in
    let* y := get middle in
    if comp (proj x) (proj y) then ret (inl (S first)) else ret (inr first)) first.

(** detail/count_inversions.h:44-59: (first2, inversions). *)
Definition inversions_loop (first middle last cache : nat) : M E (nat * nat) :=
  loop (S (last - first)) (fun '(first1, first2, result, inversions) =>
    if first1 =? middle then ret (inr (first2, inversions)) else
    if first2 =? last then
      move_range first1 middle result ;; ret (inr (first2, inversions))
    else
      let* y := get first2 in
      let* x := get first1 in
      if comp (proj y) (proj x) then
        move_to first2 result ;;
        ret (inl (first1, S first2, S result, inversions + (middle - first1)))
      else
        move_to first1 result ;;
        ret (inl (S first1, first2, S result, inversions))) (first, middle, cache, 0).

(** detail/count_inversions.h:21-67. *)
Definition count_inversions_merge (first middle last cache : nat) : M E nat :=
  let* first := inversions_shrink first middle last in
  let* (first2, inversions) := inversions_loop first middle last cache in
  move_range cache (cache + (first2 - first)) first ;;
  ret inversions.

(** detail/count_inversions.h:69-94. *)
Fixpoint count_inversions (fuel first last cache : nat) : M E nat :=
  match fuel with
  | 0 => nofuel
  | S fuel =>
    let size := last - first in
    if size <? 2 then ret 0 else
    let middle := first + size / 2 in
    let* a := count_inversions fuel first middle cache in
    let* b := count_inversions fuel middle last cache in
    let* c := count_inversions_merge first middle last cache in
    ret (a + b + c)
  end.
End CountInversions.

Section Model.
Context {A T : Type} (comp : T -> T -> bool) (proj : A -> T).

(** utility::indirect{} | projection. *)
Definition indirect_proj (it : nat * A) : T := proj (snd it).

(** probes/inv.h:30-55.  The two arrays: the iterators, then, after a cell that is not an object, the
    buffer, whose value-initialised iterators cannot be read. *)
Definition probe_inv (first last : nat) : M A nat :=
  let size := last - first in
  if size <? 2 then ret 0 else
  let* its := iterators first last in
  fun m =>
    match count_inversions comp indirect_proj (S size) 0 size (S size) (map Val its ++ Raw :: repeat Moved size) with
    | Ok n _ => Ok n m
    | UB => UB
    | NoFuel => NoFuel
    end.
(** probes/inv.h:92-97. *)
Definition inv_max_for_size (n : nat) : nat := if n =? 0 then 0 else n * (n - 1) / 2.

(** detail/longest_non_descending_subsequence.h:28-87, with the comparison as a parameter. *)
Definition longest_non_descending_subsequence (recompute is_random_access : bool) (compare : T -> T -> bool)
    (first last size : nat) : M A (nat * nat) :=
  if first =? last then ret (0, 0) else
  if S first =? last then ret (1, 1) else
  let size := if recompute && is_random_access then last - first else size in
  let* (stack_tops, size) := loop (S (last - first)) (fun '(first, stack_tops, size) =>
    if first =? last then ret (inr (stack_tops, size)) else
    let* x := get first in
    let* it := on_vector stack_tops (upper_bound compare indirect_proj 0 (length stack_tops) (proj x)) in
    let stack_tops := if it =? length stack_tops then stack_tops ++ [(first, x)] else upd it (first, x) stack_tops in
    let size := if recompute && negb is_random_access then S size else size in
    ret (inl (S first, stack_tops, size))) (first, [], size) in
  ret (length stack_tops, size).

(** probes/rem.h:46-62, on a collection with a size() method. *)
Definition probe_rem_iterable (is_random_access : bool) (first last : nat) : M A nat :=
  let* (fst_, snd_) := longest_non_descending_subsequence false is_random_access comp first last (last - first) in
  ret (if fst_ <=? snd_ then snd_ - fst_ else 0).
(** probes/rem.h:72-84. *)
Definition probe_rem (is_random_access : bool) (first last : nat) : M A nat :=
  let* (fst_, snd_) := longest_non_descending_subsequence true is_random_access comp first last 0 in
  ret (if fst_ <=? snd_ then snd_ - fst_ else 0).
(** probes/rem.h:86-91. *)
Definition rem_max_for_size (n : nat) : nat := if n =? 0 then 0 else n - 1.

(** probes/sus.h:37-49; not_fn(compare). *)
Definition probe_sus (is_random_access : bool) (first last : nat) : M A nat :=
  let* (fst_, _) := longest_non_descending_subsequence false is_random_access (fun x y => negb (comp x y)) first last 0 in
  ret (if 0 <? fst_ then fst_ - 1 else 0).
(** probes/sus.h:51-56. *)
Definition sus_max_for_size (n : nat) : nat := if n =? 0 then 0 else n - 1.

(** probes/runs.h:37-65. *)
Definition probe_runs (first last : nat) : M A nat :=
  if (first =? last) || (S first =? last) then ret 0 else
  loop (S (last - first)) (fun '(current, next, count) =>
    let* (current, next) := loop (S (last - first)) (fun '(current, next) =>
      if next =? last then ret (inr (current, next)) else
      let* y := get next in
      let* x := get current in
      if negb (comp (proj y) (proj x)) then ret (inl (S current, S next)) else ret (inr (current, next)))
      (current, next) in
    if next =? last then ret (inr count) else
    ret (inl (S current, S next, S count))) (first, S first, 0).
(** probes/runs.h:67-72. *)
Definition runs_max_for_size (n : nat) : nat := if n =? 0 then 0 else n - 1.

(** probes/mono.h:63-71 and 75-82: follow a run.  [stop x y] is the condition (on the elements of current and
    next) that ends it.  [None]: the end of the collection was reached. *)
Definition mono_run (stop : A -> A -> bool) (last current next : nat) : M A (option (nat * nat)) :=
  loop (S (last - next)) (fun '(current, next) =>
    let current := next in
    let next := S next in
    if next =? last then ret (inr None) else
    let* y := get next in
    let* x := get current in
    if negb (stop x y) then ret (inl (current, next)) else ret (inr (Some (current, next)))) (current, next).

(** probes/mono.h:37-99. *)
Definition probe_mono (first last : nat) : M A nat :=
  if (first =? last) || (S first =? last) then ret 0 else
  loop (S (last - first)) (fun '(current, next, count) =>
    if next =? last then ret (inr count) else
    let* x := get current in
    let* y := get next in
    if comp (proj x) (proj y) then
      let* r := mono_run (fun x y => comp (proj y) (proj x)) last current next in
      match r with
      | None => ret (inr count)
      | Some (current, next) => ret (inl (next, S next, S count))
      end
    else if comp (proj y) (proj x) then
      let* r := mono_run (fun x y => comp (proj x) (proj y)) last current next in
      match r with
      | None => ret (inr count)
      | Some (current, next) => ret (inl (next, S next, S count))
      end
    else ret (inl (next, S next, count))) (first, S first, 0).
(** probes/mono.h:101-106. *)
Definition mono_max_for_size (n : nat) : nat := if n =? 0 then 0 else (n + 1) / 2 - 1.

(** detail/is_p_sorted.h:18-39. *)
Definition is_p_sorted (first last pth : nat) : M A bool :=
  loop (S (last - pth)) (fun '(it1, first, max_it) =>
    if it1 =? last then ret (inr true) else
    let* x := get max_it in
    let* y := get first in
    let max_it := if comp (proj x) (proj y) then first else max_it in
    let* x := get it1 in
    let* y := get max_it in
    if comp (proj x) (proj y) then ret (inr false)
    else ret (inl (S it1, S first, max_it))) (S pth, first, first).

(** probes/dis.h:33-57. *)
Definition inplace_dis (first last size : nat) : M A nat :=
  loop (S size) (fun '(size, res, res_it) =>
    if 0 <? size then
      let p := res + size / 2 in
      let pth := res_it + size / 2 in
      let* b := is_p_sorted first last pth in
      if b then ret (inl (size / 2, res, res_it))
      else ret (inl (size - (size / 2 + 1), S p, S pth))
    else ret (inr res)) (size, 0, first).

(** probes/dis.h:94-108: the inner while loop; [inl] goes on with the next j, [inr] returns. *)
Definition dis_while (lr_cummax : list (nat * A)) (j i rl_it : nat) (rl_min : nat * A) (res : nat)
  : M A ((nat * nat * (nat * A) * nat) + nat) :=
  loop (S i) (fun '(i, rl_it, rl_min, res) =>
    let stop := ret (inr (inl (i, rl_it, rl_min, res))) in
    if negb (j <=? i) then stop else
    let* cj := rd lr_cummax (j - 1) in
    if comp (proj (snd cj)) (proj (snd rl_min)) then stop else
    let* b := (if j =? 1 then ret true
               else let* cj := rd lr_cummax (j - 2) in ret (negb (comp (proj (snd rl_min)) (proj (snd cj))))) in
    if negb b then stop else
    let res := Nat.max res (i - j) in
    let i := i - 1 in
    if i <=? res then ret (inr (inr res)) else
    let rl_it := rl_it - 1 in
    let* x := get rl_it in
    let rl_min := if comp (proj x) (proj (snd rl_min)) then (rl_it, x) else rl_min in
    ret (inl (i, rl_it, rl_min, res))) (i, rl_it, rl_min, res).

(** probes/dis.h:59-111. *)
Definition allocating_dis (first last size : nat) : M A nat :=
  if size <? 2 then ret 0 else
  let* x := get first in
  let* lr_cummax := loop (S size) (fun '(it, lr, back) =>
    if it =? last then ret (inr lr) else
    let* x := get it in
    let back := if comp (proj (snd back)) (proj x) then (it, x) else back in
    ret (inl (S it, lr ++ [back], back))) (S first, [(first, x)], (first, x)) in
  let* y := get (last - 1) in
  loop (S size) (fun '(j, i, rl_it, rl_min, res) =>
    if j =? 0 then ret (inr res) else
    let* r := dis_while lr_cummax j i rl_it rl_min res in
    match r with
    | inr res => ret (inr res)
    | inl (i, rl_it, rl_min, res) => ret (inl (j - 1, i, rl_it, rl_min, res))
    end) (size, size, last - 1, (last - 1, y), 0).

(** probes/dis.h:113-138.  [alloc_ok]: whether the memory could be allocated. *)
Definition probe_dis (cat : category) (alloc_ok : bool) (first last : nat) : M A nat :=
  let size := last - first in
  match cat with
  | Forward => inplace_dis first last size
  | _ => if negb (size <? 2) && negb alloc_ok then inplace_dis first last size else allocating_dis first last size
  end.
(** probes/dis.h:180-185. *)
Definition dis_max_for_size (n : nat) : nat := if n =? 0 then 0 else n - 1.

(** The call to pdqsort on the vector of iterators (for instance probes/exc.h:49-59); [inner] is the
    sorting algorithm. *)
Variable inner : (T -> T -> bool) -> (nat * A -> T) -> range_prog (nat * A).
Definition sorted_its (first last : nat) : M A (list (nat * A)) :=
  let* its := iterators first last in
  sort_vector (inner comp indirect_proj) its.

(** probes/exc.h:77-95: follow a cycle: (sorted, cycles). *)
Definition exc_cycle (its : list (nat * A)) (first start : nat) (current : nat * A) (next : nat * A) (sorted : list bool) (cycles : nat)
  : M A (list bool * nat) :=
  loop (S (length its)) (fun '(current, next, sorted, cycles) =>
    if fst next =? start then ret (inr (sorted, cycles)) else
    let cycles := if negb (comp (proj (snd next)) (proj (snd current))) && negb (comp (proj (snd current)) (proj (snd next)))
                  then S cycles else cycles in
    let current := next in
    let next_pos := fst next - first in
    let* next := rd its next_pos in
    let* sorted := wr sorted next_pos true in
    ret (inl (current, next, sorted, cycles))) (current, next, sorted, cycles).

(** probes/exc.h:99-104: find the next cycle. *)
Definition exc_next (sorted : list bool) (first start last : nat) : M A nat :=
  loop (S (last - start)) (fun start =>
    let start := S start in
    if start =? last then ret (inr start) else
    let* b := rd sorted (start - first) in
    if b then ret (inl start) else ret (inr start)) start.

(** probes/exc.h:32-107. *)
Definition probe_exc (first last : nat) : M A nat :=
  let size := last - first in
  if size <? 2 then ret 0 else
  let* its := sorted_its first last in
  let* cycles := loop (S size) (fun '(start, sorted, cycles) =>
    if start =? last then ret (inr cycles) else
    let* x := get start in
    let current := (start, x) in
    let next_pos := start - first in
    let* next := rd its next_pos in
    let* sorted := wr sorted next_pos true in
    let* (sorted, cycles) := (if fst next =? start then ret (sorted, cycles)
                              else exc_cycle its first start current next sorted cycles) in
    let cycles := S cycles in
    let* start := exc_next sorted first start last in
    ret (inl (start, sorted, cycles))) (first, repeat false size, 0) in
  ret (size - cycles).
(** probes/exc.h:144-149. *)
Definition exc_max_for_size (n : nat) : nat := if n =? 0 then 0 else n - 1.

(** probes/ham.h:31-72. *)
Definition probe_ham (first last : nat) : M A nat :=
  let size := last - first in
  if size <? 2 then ret 0 else
  let* its := sorted_its first last in
  loop (S size) (fun '(its, first, count) =>
    match its with
    | [] => ret (inr count)
    | it :: its =>
        let* x := get first in
        ret (inl (its, S first,
          if comp (proj x) (proj (snd it)) || comp (proj (snd it)) (proj x) then S count else count))
    end) (its, first, 0).
(** probes/ham.h:109-114. *)
Definition ham_max_for_size (n : nat) : nat := if n =? 0 then 0 else n.

(** probes/max.h:33-86. *)
Definition probe_max (first last : nat) : M A nat :=
  let size := last - first in
  if size <? 2 then ret 0 else
  let* its := sorted_its first last in
  loop (S size) (fun '(it, it_pos, max_dist) =>
    if it =? last then ret (inr max_dist) else
    let* x := get it in
    let* (pos_min, pos_max) := on_vector its (equal_range comp indirect_proj 0 (length its) (proj x)) in
    let max_dist :=
      if it_pos <? pos_min then Nat.max (pos_min - it_pos) max_dist
      else if pos_max <=? it_pos then Nat.max (it_pos - pos_max + 1) max_dist
      else max_dist in
    ret (inl (S it, S it_pos, max_dist))) (first, 0, 0).
(** probes/max.h:124-129. *)
Definition max_max_for_size (n : nat) : nat := if n =? 0 then 0 else n - 1.

(** probes/osc.h:36-69.  std::min(a, b, comp) and std::max(a, b, comp). *)
Definition std_min (a b : T) : T := if comp b a then b else a.
Definition std_max (a b : T) : T := if comp a b then b else a.
Definition inplace_osc (first last size : nat) : M A nat :=
  if size <? 2 then ret 0 else
  loop (S size) (fun '(it, count) =>
    if it =? last then ret (inr count) else
    let* value := get it in
    let* count := loop (S size) (fun '(current, next, count) =>
      if next =? last then ret (inr count) else
      let* x := get current in
      let* y := get next in
      let count := if comp (std_min (proj x) (proj y)) (proj value) && comp (proj value) (std_max (proj x) (proj y))
                   then S count else count in
      ret (inl (S current, S next, count))) (first, S first, count) in
    ret (inl (S it, count))) (first, 0).

(** std::partial_sum then std::accumulate (probes/osc.h:155-156). *)
Fixpoint partial_sum (acc : Z) (v : list Z) : list Z :=
  match v with
  | [] => []
  | x :: v => (acc + x)%Z :: partial_sum (acc + x) v
  end.
Definition accumulate (v : list Z) : Z := fold_left Z.add v 0%Z.

(** probes/osc.h:71-157. *)
Definition allocating_osc (first last size : nat) : M A Z :=
  if size <? 2 then ret 0%Z else
  let* its := sorted_its first last in
  let bounds (x : A) := on_vector its (equal_range comp indirect_proj 0 (length its) (proj x)) in
  let* x := get first in
  let* prev_bounds := bounds x in
  let* cross := loop (S size) (fun '(prev, current, prev_bounds, cross) =>
    if current =? last then ret (inr cross) else
    let* x := get prev in
    let* y := get current in
    let update min_idx max_idx prev_bounds :=
      let* c := rd cross min_idx in
      let* cross := wr cross min_idx (c + 1)%Z in
      let* c := rd cross max_idx in
      let* cross := wr cross max_idx (c - 1)%Z in
      ret (inl (S prev, S current, prev_bounds, cross)) in
    if comp (proj x) (proj y) then
      let* current_bounds := bounds y in
      update (snd prev_bounds) (fst current_bounds) current_bounds
    else if comp (proj y) (proj x) then
      let* current_bounds := bounds y in
      update (snd current_bounds) (fst prev_bounds) current_bounds
    else ret (inl (S prev, S current, prev_bounds, cross)))
    (first, S first, prev_bounds, repeat 0%Z size) in
  ret (accumulate (partial_sum 0 cross)).

(** probes/osc.h:159-173. *)
Definition probe_osc (alloc_ok : bool) (first last : nat) : M A Z :=
  let size := last - first in
  if negb (size <? 2) && negb alloc_ok
  then let* n := inplace_osc first last size in ret (Z.of_nat n)
  else allocating_osc first last size.
(** probes/osc.h:209-214; the division truncates toward 0. *)
Definition osc_max_for_size (n : Z) : Z := if Z.eqb n 0 then 0%Z else Z.quot (n * (n - 2) - 1) 2.

(** probes/enc.h:32-57.  [opt]: can_optimize.  [accessor] gives the head or the tail of a list. *)
Definition enc_lower_bound (opt : bool) (lists : list (A * A)) (value : T) (compare : T -> T -> bool) (accessor : A * A -> A)
  : M A nat :=
  if opt then on_vector lists (lower_monobound_n compare (fun l => proj (accessor l)) 0 (length lists - 1) value)
  else on_vector lists (lower_bound_n compare (fun l => proj (accessor l)) 0 (length lists - 1) value).

(** probes/enc.h:69-116.  The pairs of iterators are pairs of the elements they point to. *)
Definition probe_enc (opt : bool) (first last : nat) : M A nat :=
  if (first =? last) || (S first =? last) then ret 0 else
  let* x := get first in
  let* lists := loop (S (last - first)) (fun '(first, lists) =>
    if first =? last then ret (inr lists) else
    let* x := get first in
    let value := proj x in
    let* last_list := rd lists (length lists - 1) in
    if negb (comp value (proj (snd last_list))) then
      let* it := enc_lower_bound opt lists value (flip_comp comp) snd in
      let* l := rd lists it in
      let* lists := wr lists it (fst l, x) in
      ret (inl (S first, lists))
    else if negb (comp (proj (fst last_list)) value) then
      let* it := enc_lower_bound opt lists value comp fst in
      let* l := rd lists it in
      let* lists := wr lists it (x, snd l) in
      ret (inl (S first, lists))
    else ret (inl (S first, lists ++ [(x, x)]))) (S first, [(x, x)]) in
  ret (length lists - 1).
(** probes/enc.h:118-123. *)
Definition enc_max_for_size (n : nat) : nat := if n =? 0 then 0 else (n + 1) / 2 - 1.

(** probes/block.h:31-80. *)
Definition probe_block (first last : nat) : M A nat :=
  let size := last - first in
  if size <? 2 then ret 0 else
  let* its := sorted_its first last in
  let* it_last := rd its (length its - 1) in
  let diff x y := comp (proj x) (proj y) || comp (proj y) (proj x) in
  loop (S size) (fun '(k, count) =>
    if k =? length its - 1 then ret (inr count) else
    let* it := rd its k in
    let orig_next := S (fst it) in
    if orig_next =? last then
      ret (inl (S k, if diff (snd it) (snd it_last) then S count else count))
    else
      let* sorted_next := rd its (S k) in
      let* x := get orig_next in
      ret (inl (S k, if diff x (snd sorted_next) then S count else count))) (0, 0).
(** probes/block.h:117-122. *)
Definition block_max_for_size (n : nat) : nat := if n =? 0 then 0 else n - 1.
End Model.
