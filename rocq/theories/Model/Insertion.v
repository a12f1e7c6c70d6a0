(** Insertion sort. *)
From Coq Require Import List Arith Bool.
From Verif Require Import Lang.Mem.
Import ListNotations.

Section Model.
Context {A T : Type} (comp : T -> T -> bool) (proj : A -> T).

(** detail/insertion_sort.h:62-64, the [do ... while] of the sift loop.
    [comp(tmp_proj, proj( *--sift_1))] is evaluated only when [--sift != first]. *)
Definition insertion_sift (first : nat) (tmp : A) (sift sift_1 : nat) : M A nat :=
  loop (S (sift - first)) (fun '(sift, sift_1) =>
    move_to sift_1 sift ;;
    let sift := sift - 1 in
    if sift =? first then ret (inr sift) else
    let sift_1 := sift_1 - 1 in
    let* y := get sift_1 in
    if comp (proj tmp) (proj y) then ret (inl (sift, sift_1)) else ret (inr sift))
  (sift, sift_1).

(** detail/insertion_sort.h:53-66, one iteration of the outer loop. *)
Definition insertion_step (first cur : nat) : M A unit :=
  let sift := cur in
  let sift_1 := cur - 1 in
  let* x := get sift in
  let* y := get sift_1 in
  if comp (proj x) (proj y) then
    let* tmp := take sift in
    let* sift := insertion_sift first tmp sift sift_1 in
    put sift tmp
  else ret tt.

(** detail/insertion_sort.h:41-68. *)
Definition insertion_sort (first last : nat) : M A unit :=
  if first =? last then ret tt else
  loop (S (last - first)) (fun cur =>
    if cur =? last then ret (inr tt) else
    insertion_step first cur ;; ret (inl (S cur)))
  (S first).

(** sorters/insertion_sorter.h:40-54. *)
Definition insertion_sorter : range_prog A := insertion_sort.
End Model.
