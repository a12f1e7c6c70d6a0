(** low_comparisons_sorter and low_moves_sorter. *)
From Coq Require Import List Arith Bool.
From Verif Require Import Lang.Mem Model.Basic Model.Networks Model.Straight Model.FixedTables.
Import ListNotations.

Section Model.
Context {A T : Type} (comp : T -> T -> bool) (proj : A -> T).
Notation run := (run_code comp proj).

(** detail/front_insert.h:40-45, and the specializations of front_inserter_n (0 and 1 do nothing). *)
Definition front_insert (n : nat) (first : nat) : M A unit :=
  match n with
  | 2 => run front_inserter2 first
  | 3 => run front_inserter3 first
  | 4 => run front_inserter4 first
  | 5 => run front_inserter5 first
  | 6 => run front_inserter6 first
  | 7 => run front_inserter7 first
  | 8 => run front_inserter8 first
  | 9 => run front_inserter9 first
  | 10 => run front_inserter10 first
  | 11 => run front_inserter11 first
  | _ => ret tt
  end.

(** detail/low_comparisons/sort2.h, sort3.h, sort5.h, sort6.h, sort9.h. *)
Definition low_comparisons_2 : range_prog A := fun first _ => run low_comparisons2 first.
Definition low_comparisons_3 : range_prog A := fun first _ => run low_comparisons3 first.
Definition low_comparisons_5 : range_prog A := fun first _ => run low_comparisons5 first.
Definition low_comparisons_6 : range_prog A := fun first _ => run low_comparisons6 first.
Definition low_comparisons_9 : range_prog A := fun first _ => run low_comparisons9 first.

(** detail/low_comparisons/sort4.h:20-28. *)
Definition low_comparisons_4 : range_prog A := fun first _ =>
  low_comparisons_3 (first + 1) (first + 4) ;; front_insert 4 first.
(** detail/low_comparisons/sort7.h:20-29. *)
Definition low_comparisons_7 : range_prog A := fun first _ =>
  low_comparisons_6 (first + 1) (first + 7) ;; front_insert 7 first.
(** detail/low_comparisons/sort8.h:20-28. *)
Definition low_comparisons_8 : range_prog A := fun first _ =>
  low_comparisons_7 (first + 1) (first + 8) ;; front_insert 8 first.
(** detail/low_comparisons/sort10.h:20-28. *)
Definition low_comparisons_10 : range_prog A := fun first _ =>
  low_comparisons_9 (first + 1) (first + 10) ;; front_insert 10 first.
(** detail/low_comparisons/sort11.h:20-28. *)
Definition low_comparisons_11 : range_prog A := fun first _ =>
  low_comparisons_10 (first + 1) (first + 11) ;; front_insert 11 first.
(** detail/low_comparisons/sort12.h:20-90. *)
Definition low_comparisons_12 : range_prog A := fun first _ =>
  low_comparisons_10 (first + 1) (first + 11) ;; run low_comparisons12 first.
(** detail/low_comparisons/sort13.h:20-98. *)
Definition low_comparisons_13 : range_prog A := fun first _ =>
  low_comparisons_11 (first + 1) (first + 12) ;; run low_comparisons13 first.

(** fixed/low_comparisons_sorter.h:30-60; there is no sorter above 13 (static_assert): [ub]. *)
Definition low_comparisons_sorter (n : nat) : range_prog A :=
  match n with
  | 0 | 1 => empty_sorter
  | 2 => low_comparisons_2
  | 3 => low_comparisons_3
  | 4 => low_comparisons_4
  | 5 => low_comparisons_5
  | 6 => low_comparisons_6
  | 7 => low_comparisons_7
  | 8 => low_comparisons_8
  | 9 => low_comparisons_9
  | 10 => low_comparisons_10
  | 11 => low_comparisons_11
  | 12 => low_comparisons_12
  | 13 => low_comparisons_13
  | _ => fun _ _ => ub
  end.

(** fixed/low_moves_sorter.h:47-77 (general case); lines 80-88 (0, 1); detail/low_moves/sort2.h:36-40,
    sort3.h:33-62, sort4.h:33-46. [low_moves_sorter<3u>] has the body of low_moves/sort3.h. *)
Fixpoint low_moves_sorter (n : nat) (first last : nat) : M A unit :=
  match n with
  | 0 | 1 => ret tt
  | 2 => iter_swap_if comp proj first (first + 1)
  | 3 => run low_moves3 first
  | 4 =>
      let* mn := min_element comp proj first last in
      (if mn =? first then ret tt else swap mn first) ;;
      run low_moves3 (first + 1)
  | S (S (S (S (S _)) as n')) =>
      let* (mn, mx) := unchecked_minmax_element comp proj first last in
      let last := last - 1 in
      (if (mx =? first) && (mn =? last) then
         if mn =? mx then ret tt else swap mn mx
       else if mx =? first then
         (if last =? mx then ret tt else swap last mx) ;;
         (if first =? mn then ret tt else swap first mn)
       else
         (if first =? mn then ret tt else swap first mn) ;;
         (if last =? mx then ret tt else swap last mx)) ;;
      low_moves_sorter n' (S first) last
  end.
End Model.
