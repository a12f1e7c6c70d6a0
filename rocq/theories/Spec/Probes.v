(** What the measures of presortedness measure. *)
From Coq Require Import List Arith Bool.
From Verif Require Import Spec.Order Lang.Mem.
Import ListNotations.

Section Spec.
Context {A : Type} (lt : A -> A -> bool).
Implicit Types xs ys : list A.

(** Whether the element at position [j] is less than the one at position [i]. *)
Definition less_pos xs (j i : nat) : bool :=
  match nth_error xs j, nth_error xs i with
  | Some y, Some x => lt y x
  | _, _ => false
  end.

(** The inversions: the pairs of positions [i < j] whose elements are in the wrong order. *)
Definition inversion_pairs xs : list (nat * nat) :=
  filter (fun '(i, j) => (i <? j) && less_pos xs j i) (list_prod (seq 0 (length xs)) (seq 0 (length xs))).

(** [ys] is a subsequence of [xs]. *)
Inductive subseq : list A -> list A -> Prop :=
| subseq_nil : subseq [] []
| subseq_skip : forall x ys xs, subseq ys xs -> subseq ys (x :: xs)
| subseq_keep : forall x ys xs, subseq ys xs -> subseq (x :: ys) (x :: xs).

(** [k] is the length of a longest non-decreasing subsequence. *)
Definition lnds_length xs (k : nat) : Prop :=
  (exists ys, subseq ys xs /\ sorted lt ys /\ length ys = k) /\
  (forall ys, subseq ys xs -> sorted lt ys -> length ys <= k).

(** [xs] can be split into [k] non-decreasing subsequences: [color] gives the one to which each position belongs. *)
Definition splits_into xs (k : nat) : Prop :=
  exists color : nat -> nat,
    (forall i, i < length xs -> color i < k) /\
    (forall i j, i < j < length xs -> color i = color j -> less_pos xs j i = false).
Definition min_splits xs (k : nat) : Prop :=
  splits_into xs k /\ forall k', splits_into xs k' -> k <= k'.

(** Positions whose element is less than the previous one. *)
Definition step_downs xs : list nat := filter (fun i => less_pos xs (S i) i) (seq 0 (length xs - 1)).

(** [xs] is made of [k] monotone runs, each one as long as possible, from left to right. *)
Definition monotone xs : Prop := sorted lt xs \/ sorted (fun x y => lt y x) xs.
Inductive greedy_runs : list A -> nat -> Prop :=
| greedy_nil : greedy_runs [] 0
| greedy_run : forall run rest k, run <> [] -> monotone run ->
    (match rest with [] => True | x :: _ => ~ monotone (run ++ [x]) end) ->
    greedy_runs rest k -> greedy_runs (run ++ rest) (S k).

(** The greatest distance between the two positions of an inversion. *)
Definition max_inversion_distance xs : nat :=
  fold_right Nat.max 0 (map (fun '(i, j) => j - i) (inversion_pairs xs)).

(** [ys] is obtained from [xs] by [k] exchanges of two elements. *)
Definition swapped xs ys (i j : nat) : Prop :=
  i < length xs /\ j < length xs /\ length ys = length xs /\ nth_error ys i = nth_error xs j /\
  nth_error ys j = nth_error xs i /\ forall k, k <> i -> k <> j -> nth_error ys k = nth_error xs k.
Inductive exchanges : nat -> list A -> list A -> Prop :=
| exchanges_0 : forall xs, exchanges 0 xs xs
| exchanges_S : forall k i j xs ys zs, swapped xs ys i j -> exchanges k ys zs -> exchanges (S k) xs zs.
Definition min_exchanges xs (k : nat) : Prop :=
  (exists ys, exchanges k xs ys /\ sorted lt ys) /\
  (forall k' ys, exchanges k' xs ys -> sorted lt ys -> k <= k').

(** No two positions hold equivalent elements. *)
Definition distinct xs : Prop :=
  forall i j x y, i < j -> nth_error xs i = Some x -> nth_error xs j = Some y -> equivalent lt x y = false.

(** Number of positions at which two collections differ. *)
Definition hamming xs ys : nat :=
  length (filter (fun '(x, y) => negb (equivalent lt x y)) (combine xs ys)).

(** [d] is the greatest of the distances, over the positions [i] of [xs], from [i] to the nearest position of [ys]
    whose element is equivalent to that of [i]. *)
Definition distance (i j : nat) : nat := (i - j) + (j - i).
Definition max_displacement xs ys (d : nat) : Prop :=
  (forall i x, nth_error xs i = Some x ->
     exists j y, nth_error ys j = Some y /\ equivalent lt x y = true /\ distance i j <= d) /\
  (d = 0 \/ exists i x, nth_error xs i = Some x /\
     forall j y, nth_error ys j = Some y -> equivalent lt x y = true -> d <= distance i j).

(** The pairs ([i], [k]) such that the elements [k] and [k + 1] strictly straddle the element [i]. *)
Definition straddles xs (i k : nat) : bool :=
  (less_pos xs k i && less_pos xs i (S k)) || (less_pos xs (S k) i && less_pos xs i k).
Definition oscillation xs : nat :=
  length (filter (fun '(i, k) => straddles xs i k) (list_prod (seq 0 (length xs)) (seq 0 (length xs - 1)))).

(** Encroaching lists (Skiena): each element is put at an end of the first list where it fits, the lists being known
    by their heads and tails. *)
Fixpoint encroach (lists : list (A * A)) (x : A) : list (A * A) :=
  match lists with
  | [] => [(x, x)]
  | (h, t) :: r =>
      if negb (lt x t) then (h, x) :: r
      else if negb (lt h x) then (x, t) :: r
      else (h, t) :: encroach r x
  end.
Definition encroaching_lists xs : list (A * A) := fold_left encroach xs [].

(** Number of elements [ys] has before its last one, whose successors in [ys] are not their successors in [xs]. *)
Definition adjacent xs (x y : A) : Prop :=
  exists i x' y', nth_error xs i = Some x' /\ nth_error xs (S i) = Some y' /\
    equivalent lt x x' = true /\ equivalent lt y y' = true.
Definition broken_adjacencies xs ys (n : nat) : Prop :=
  exists l, NoDup l /\ length l = n /\
    forall k, In k l <-> exists x y, nth_error ys k = Some x /\ nth_error ys (S k) = Some y /\ ~ adjacent xs x y.
End Spec.

(** On a collection anywhere in memory, [prog] terminates without undefined behaviour, leaves the whole memory as it
    was and returns a value which satisfies [P]. *)
Definition returns {A X} (prog : nat -> nat -> M A X) (xs : list A) (P : X -> Prop) : Prop :=
  forall pre post, exists r,
    prog (length pre) (length pre + length xs) (pre ++ map Val xs ++ post) = Ok r (pre ++ map Val xs ++ post) /\ P r.

(** [v] is the greatest of the values [prog] returns for the collections of [n] elements: none is greater, and some
    collection gives it. *)
Definition greatest_for_size {X} (le : X -> X -> Prop) (prog : nat -> nat -> M nat X) (n : nat) (v : X) : Prop :=
  (forall xs, length xs = n -> returns prog xs (fun r => le r v)) /\
  (exists xs, length xs = n /\ returns prog xs (fun r => r = v)).
