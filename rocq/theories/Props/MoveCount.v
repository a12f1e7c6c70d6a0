(** C77: metrics::moves. *)
From Coq Require Import List Arith.
From Verif Require Import Lang.Mem Model.MoveCount Spec.MoveCount Proofs.MoveCount.
Import ListNotations.

(** Every sorter, every range, every projection, whatever counters exist already: if the sorter turns the elements of the range into [result], so does the
    metric; it returns the number of move constructions and move assignments that the sorter makes, those to the vector and back are not counted, and
    the other counters are not touched. *)
Theorem C77_moves_transparent_and_exact :
  forall (A K : Type) (proj : A -> K) (sorter : nat -> prog K) (range result : list A) (h : counters) (rest : mem A),
    length result = length range ->
    run proj (sorter (length range)) (map Val range) = Ok tt (map Val result ++ rest) ->
    let n := moves proj (sorter (length range)) (map Val range) in
    count_moves proj sorter range h = Some (result, h ++ [n], n).
Proof. intros A K proj. exact (count_moves_ok proj). Qed.
Print Assumptions C77_moves_transparent_and_exact.

(** What is undefined for the sorter is undefined for the metric: nothing is hidden. *)
Theorem C77_moves_undefined :
  forall (A K : Type) (proj : A -> K) (sorter : nat -> prog K) (range : list A) (h : counters),
    run proj (sorter (length range)) (map Val range) = UB -> count_moves proj sorter range h = None.
Proof. intros A K proj. exact (count_moves_ub proj). Qed.
Print Assumptions C77_moves_undefined.

(** Two elements, swapped through a local variable if the keys are not in order. *)
Example C77_case : let sort2 (n : nat) : prog nat :=
  Read 1 (fun y => Read 0 (fun x =>
    if y <? x then Alloc 1 (fun tmp => Construct tmp 0 (Assign 0 1 (Assign 1 tmp (Destroy tmp (Dealloc tmp 1 Done))))) else Done)) in
  run fst (sort2 2) (map Val [(7, true); (4, false)]) = Ok tt (map Val [(4, false); (7, true)] ++ []) /\
  count_moves fst sort2 [(7, true); (4, false)] [5; 6] = Some ([(4, false); (7, true)], [5; 6; 3], 3) /\
  count_moves fst sort2 [(4, true); (7, false)] [5; 6] = Some ([(4, true); (7, false)], [5; 6; 0], 0).
Proof. repeat split. Qed.
