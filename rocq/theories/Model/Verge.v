(** Vergesort (detail/vergesort.h). *)
From Coq Require Import List Arith Bool.
From Verif Require Import Lang.Mem Model.Basic Model.Rotate Model.Search Model.Buffer Model.Merge Model.Pdq Model.Select Model.Adapters.
Import ListNotations.

(** detail/vergesort.h:38-43: the end of a run and its size. *)
Definition run := (nat * nat)%type.

Section Model.
Context {A T : Type} (comp : T -> T -> bool) (proj : A -> T).
Notation less := (less_at comp proj).
(** [triv], [o]: see Model/Merge.v. *)
Variables (cat : Rotate.category) (triv : bool) (o : oracle).

(** detail/vergesort.h:64-82: merge the run that begins at [begin] with the next one.  The rotation of line 70 begins at [first], the
    beginning of the collection, not at [begin]. *)
Definition merge_two (first begin : nat) (it next_it : run) : M A unit :=
  let '(it_end, it_size) := it in
  let '(next_end, next_size) := next_it in
  if it_size =? 1 then
    let* target := get begin in
    let* y := get it_end in
    if comp (proj y) (proj target) then
      let* insert_it := lower_bound_n comp proj it_end next_size (proj target) in
      let* _ := rotate_left first insert_it in
      ret tt
    else ret tt
  else if next_size =? 1 then
    let* target := get (next_end - 1) in
    let* x := get (it_end - 1) in
    if comp (proj target) (proj x) then
      let* insert_it := upper_bound_n comp proj begin it_size (proj target) in
      let* _ := rotate_right insert_it next_end in
      ret tt
    else ret tt
  else inplace_merge_n comp proj cat triv o begin it_end next_end it_size next_size.

(** detail/vergesort.h:60-90: one traversal of the list, from the run that begins at [begin]. *)
Fixpoint merge_pass (first begin : nat) (runs : list run) : M A (list run) :=
  match runs with
  | it :: next_it :: rest =>
    merge_two first begin it next_it ;;
    let merged := (fst next_it, snd next_it + snd it) in
    let* rest := merge_pass first (fst merged) rest in
    ret (merged :: rest)
  | _ => ret runs
  end.

(** detail/vergesort.h:48-92. *)
Definition merge_runs (first : nat) (runs : list run) : M A unit :=
  if length runs <? 2 then ret tt else
  loop (S (length runs)) (fun runs =>
    let* runs := merge_pass first first runs in
    if 1 <? length runs then ret (inl runs) else ret (inr tt)) runs.

(** Is the element at [next] out of the run that ends at [current]?  [desc]: a descending run, strictly descending if [stable].
    detail/vergesort.h:197, 451, 453 or 458; 250, 394, 396 or 403; 258, 412, 414 or 421. *)
Definition out_of_run (stable desc : bool) (current next : nat) : M A bool :=
  if desc then
    if stable then let* c := less next current in ret (negb c)
    else less current next
  else less next current.

(** detail/vergesort.h:196-201, 249-254, 257-262; and 402-406, 420-424, 457-461 where there is no [run_size].
    Result: (current, next, run_size). *)
Definition scan_right (stable desc : bool) (last current next run_size : nat) : M A (nat * nat * nat) :=
  loop (S (last - next)) (fun '(current, next, run_size) =>
    if next =? last then ret (inr (current, next, run_size)) else
    let* b := out_of_run stable desc current next in
    if (b : bool) then ret (inr (current, next, run_size))
    else ret (inl (S current, S next, S run_size))) (current, next, run_size).

(** detail/vergesort.h:391-398, 409-416 or 448-453: the beginning of the run that contains [current] and [next]. *)
Definition scan_left (stable desc : bool) (begin_range current next : nat) : M A nat :=
  let* (current, next) := loop (S (current - begin_range)) (fun '(current, next) =>
    let current := current - 1 in
    let next := next - 1 in
    let* b := out_of_run stable desc current next in
    if (b : bool) then ret (inr (current, next))
    else if negb (current =? begin_range) then ret (inl (current, next))
    else ret (inr (current, next))) (current, next) in
  let* b := out_of_run stable desc current next in
  ret (if (b : bool) then S current else current).

Variables (stable : bool) (fallback : range_prog A).

(** ** Random-access iterators *)

(** begin_unsorted, current, next, runs.  A run that is added to the list is added at its end. *)
Definition verge_state := (nat * nat * nat * list run)%type.

(** detail/vergesort.h:353-486, one iteration; [inr]: the loop is left (begin_unsorted and runs). *)
Definition verge_step (last minrun_limit : nat) : verge_state -> M A (verge_state + nat * list run) :=
  fun '(begin_unsorted, current, next, runs) =>
  let begin_range := current in
  if last - next <=? minrun_limit then
    ret (inr (if begin_unsorted =? last then begin_range else begin_unsorted, runs))
  else
    let current := current + minrun_limit in
    let next := next + minrun_limit in
    let* desc := less next current in
    let* run_begin := scan_left stable desc begin_range current next in
    let* (current2, next2, _) := scan_right stable desc last (S current) (S next) 0 in
    let current := run_begin in
    let* (begin_unsorted, runs) :=
      if minrun_limit <=? next2 - current then
        (if (desc : bool) then reverse cat current next2 else ret tt) ;;
        let begin_unsorted := if negb (current - begin_range =? 0) && (begin_unsorted =? last) then begin_range else begin_unsorted in
        if negb (begin_unsorted =? last) then
          fallback begin_unsorted current ;;
          ret (last, runs ++ [(current, current - begin_unsorted); (next2, next2 - current)])
        else ret (begin_unsorted, runs ++ [(next2, next2 - current)])
      else ret (if begin_unsorted =? last then begin_range else begin_unsorted, runs) in
    if next2 =? last then ret (inr (begin_unsorted, runs))
    else ret (inl (begin_unsorted, S current2, S next2, runs)).

(** detail/vergesort.h:320-496. *)
Definition verge_sort_random_access (first last size : nat) : M A unit :=
  if size <? 128 then fallback first last else
  let minrun_limit := size / log2 size in
  let* (begin_unsorted, runs) := loop (S size) (verge_step last minrun_limit) (last, first, S first, []) in
  let* runs :=
    if negb (begin_unsorted =? last) then
      fallback begin_unsorted last ;;
      ret (runs ++ [(last, last - begin_unsorted)])
    else ret runs in
  merge_runs first runs.

(** ** Bidirectional iterators *)

(** The fallback is given the size of the range with the range (make_sized_range): [ub] if it is not that size. *)
Definition fallback_n (first last size : nat) : M A unit :=
  assert (last - first =? size) ;;
  fallback first last.

(** Which label is next (find_descending if true), begin_unsorted, size_unsorted, current, next, runs. *)
Definition verge_state_bidi := (bool * nat * nat * nat * nat * list run)%type.

(** detail/vergesort.h:187-237 or 239-301: from one of the labels to the next one, or out of the loop (begin_unsorted, size_unsorted,
    runs).  Falling from the first label to the second one, or from the end of the loop to the first label, is a change of [desc]. *)
Definition verge_step_bidi (last minrun_limit : nat) : verge_state_bidi -> M A (verge_state_bidi + nat * nat * list run) :=
  fun '(desc, begin_unsorted, size_unsorted, current, next, runs) =>
  let* c := less next current in
  assert (Bool.eqb c desc) ;;
  let begin_rng := current in
  let* (current, next, run_size) := scan_right stable desc last (S current) (S next) 2 in
  if minrun_limit <? run_size then
    let* (begin_unsorted, size_unsorted, runs) :=
      if negb (begin_unsorted =? last) then
        fallback_n begin_unsorted begin_rng size_unsorted ;;
        (if desc then reverse cat begin_rng next else ret tt) ;;
        ret (last, 0, runs ++ [(begin_rng, size_unsorted); (next, run_size)])
      else
        (if desc then reverse cat begin_rng next else ret tt) ;;
        ret (begin_unsorted, size_unsorted, runs ++ [(next, run_size)]) in
    if next =? last then ret (inr (begin_unsorted, size_unsorted, runs)) else
    let current := S current in
    let next := S next in
    if next =? last then ret (inr (current, 0, runs)) else
    let* c := less next current in
    ret (inl (c, begin_unsorted, size_unsorted, current, next, runs))
  else
    let size_unsorted := size_unsorted + (run_size - 1) in
    let begin_unsorted := if begin_unsorted =? last then begin_rng else begin_unsorted in
    if next =? last then ret (inr (begin_unsorted, size_unsorted, runs))
    else ret (inl (negb desc, begin_unsorted, size_unsorted, current, next, runs)).

(** detail/vergesort.h:97-318.  [minrun_limit] is an int; here it is not bounded. *)
Definition verge_sort_bidirectional (first last size : nat) : M A unit :=
  if size <? 128 then fallback_n first last size else
  let minrun_limit := size / log2 size in
  let* desc := less (S first) first in
  let* (begin_unsorted, size_unsorted, runs) :=
    loop (S size) (verge_step_bidi last minrun_limit) (desc, last, 0, first, S first, []) in
  let* runs :=
    if negb (begin_unsorted =? last) then
      let size_unsorted := S size_unsorted in
      (if 1 <? size_unsorted then fallback_n begin_unsorted last size_unsorted else ret tt) ;;
      ret (runs ++ [(last, size_unsorted)])
    else ret runs in
  merge_runs first runs.

(** detail/vergesort.h:515-533; adapters/verge_adapter.h:40-91.  [fallback] is the adapted sorter, or [stable_t] of it if [stable]
    (detail/vergesort.h:501-513). *)
Definition verge_adapter : range_prog A := fun first last =>
  match cat with
  | Rotate.RandomAccess => verge_sort_random_access first last (last - first)
  | _ => verge_sort_bidirectional first last (last - first)
  end.
End Model.

(** sorters/verge_sorter.h:116-128: the adapted sorter is hybrid_adapter<pdq_sorter, quick_merge_sorter>. *)
Definition verge_fallback {A T : Type} (comp : T -> T -> bool) (proj : A -> T) (cat : Rotate.category) (lenient branchless : bool) : range_prog A :=
  match cat with
  | Rotate.RandomAccess => pdq_sorter comp proj lenient branchless
  | _ => quick_merge_sorter comp proj cat
  end.
Definition verge_sorter {A T : Type} (comp : T -> T -> bool) (proj : A -> T) (cat : Rotate.category) (triv : bool) (o : oracle)
    (lenient branchless : bool) : range_prog A :=
  verge_adapter comp proj cat triv o false (verge_fallback comp proj cat lenient branchless).
(** sorters/verge_sorter.h:46-67 with detail/stable_adapter_hybrid_adapter.h:17-36. *)
Definition stable_verge_sorter {A T : Type} (comp : T -> T -> bool) (proj : A -> T) (cat : Rotate.category) (triv : bool) (o : oracle)
    (lenient branchless : bool) : range_prog A :=
  verge_adapter comp proj cat triv o true
    (make_stable (fun c => verge_fallback c (fun x => x) cat lenient branchless) comp proj).
