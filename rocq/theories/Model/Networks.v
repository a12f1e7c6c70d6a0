(** Sorting networks: application of index pairs, and the two generated networks. The tables of
    sorting_network_sorter are in Model/NetworkTables.v. *)
From Coq Require Import List Arith Bool NArith.
From Verif Require Import Lang.Mem Model.Basic Model.NetworkTables.
Import ListNotations.

(** utility/sorting_networks.h:29-33. *)
Definition index_pair : Type := nat * nat.

Section Apply.
Context {A T : Type} (comp : T -> T -> bool) (proj : A -> T).

(** utility/sorting_networks.h:41-55. *)
Fixpoint swap_index_pairs (first : nat) (pairs : list index_pair) : M A unit :=
  match pairs with
  | [] => ret tt
  | (a, b) :: rest =>
      iter_swap_if comp proj (first + a) (first + b) ;;
      swap_index_pairs first rest
  end.

(** detail/empty_sorter.h:28-44. *)
Definition empty_sorter : range_prog A := fun _ _ => ret tt.

Definition of_table (t : list (N * N)) : list index_pair :=
  map (fun '(a, b) => (N.to_nat a, N.to_nat b)) t.

(** fixed/sorting_network_sorter.h:35-46 (sizes 0 and 1), then the operator() of
    detail/sorting_network/sort2.h .. sort64.h: a straight sequence of iter_swap_if, from
    the table [network_swaps]. *)
Definition sorting_network_sorter (n : nat) : range_prog A :=
  if n <? 2 then empty_sorter
  else fun first _ => swap_index_pairs first (of_table (network_swaps n)).

(** index_pairs() of the same classes. *)
Definition sorting_network_index_pairs (n : nat) : list index_pair := of_table (network_pairs n).

End Apply.

(** ** Generated networks. The loops run under a fuel, [None] when it is exhausted. *)

(** detail/bitops.h:89-101, on [n > 0]: the loop, with [n - 1] already done. *)
Fixpoint ceil_log2_loop (fuel n log : nat) : option nat :=
  if n =? 0 then Some log else
  match fuel with
  | 0 => None
  | S fuel => ceil_log2_loop fuel (n / 2) (S log)
  end.

Definition ceil_log2 (n : nat) : option nat := ceil_log2_loop n (n - 1) 0.

(** fixed/merge_exchange_network_sorter.h:86-91, iterations [i, n - d). *)
Definition merge_exchange_layer (n p r d : nat) : list index_pair :=
  map (fun i => (i, i + d)) (filter (fun i => Nat.land i p =? r) (seq 0 (n - d))).

(** fixed/merge_exchange_network_sorter.h:85-95. *)
Fixpoint merge_exchange_while (fuel n p q r d : nat) : option (list index_pair) :=
  if d =? 0 then Some [] else
  match fuel with
  | 0 => None
  | S fuel =>
      match merge_exchange_while fuel n p (q / 2) p (q - p) with
      | None => None
      | Some rest => Some (merge_exchange_layer n p r d ++ rest)
      end
  end.

(** fixed/merge_exchange_network_sorter.h:80-96. *)
Fixpoint merge_exchange_for (fuel n t p : nat) : option (list index_pair) :=
  if p =? 0 then Some [] else
  match fuel with
  | 0 => None
  | S fuel =>
      match merge_exchange_while (S (S t)) n p (2 ^ (t - 1)) 0 p,
            merge_exchange_for fuel n t (p / 2) with
      | Some l, Some rest => Some (l ++ rest)
      | _, _ => None
      end
  end.

(** fixed/merge_exchange_network_sorter.h:67-99; sizes 0 and 1: lines 121-129. *)
Definition merge_exchange_index_pairs (n : nat) : option (list index_pair) :=
  if n <? 2 then Some [] else
  match ceil_log2 n with
  | None => None
  | Some t => merge_exchange_for (S t) n t (2 ^ (t - 1))
  end.

(** fixed/odd_even_merge_network_sorter.h:75-80: the pairs of one [j]. *)
Definition odd_even_merge_run (p k j : nat) : list index_pair :=
  map (fun i => (i + j, i + j + k))
      (filter (fun i => (i + j) / (p * 2) =? (i + j + k) / (p * 2)) (seq 0 k)).

(** fixed/odd_even_merge_network_sorter.h:74-81. *)
Fixpoint odd_even_merge_j (fuel n p k j : nat) : option (list index_pair) :=
  if negb (j <? n - k) then Some [] else
  match fuel with
  | 0 => None
  | S fuel =>
      match odd_even_merge_j fuel n p k (j + 2 * k) with
      | None => None
      | Some rest => Some (odd_even_merge_run p k j ++ rest)
      end
  end.

(** fixed/odd_even_merge_network_sorter.h:73-82. *)
Fixpoint odd_even_merge_k (fuel n p k : nat) : option (list index_pair) :=
  if k =? 0 then Some [] else
  match fuel with
  | 0 => None
  | S fuel =>
      match odd_even_merge_j n n p k (k mod p), odd_even_merge_k fuel n p (k / 2) with
      | Some l, Some rest => Some (l ++ rest)
      | _, _ => None
      end
  end.

(** fixed/odd_even_merge_network_sorter.h:72-83. *)
Fixpoint odd_even_merge_p (fuel n p : nat) : option (list index_pair) :=
  if negb (p <? n) then Some [] else
  match fuel with
  | 0 => None
  | S fuel =>
      match odd_even_merge_k (S p) n p p, odd_even_merge_p fuel n (p * 2) with
      | Some l, Some rest => Some (l ++ rest)
      | _, _ => None
      end
  end.

(** fixed/odd_even_merge_network_sorter.h:60-86; sizes 0 and 1: lines 108-116. *)
Definition odd_even_merge_index_pairs (n : nat) : option (list index_pair) :=
  if n <? 2 then Some [] else odd_even_merge_p n n 1.

Section Sorters.
Context {A T : Type} (comp : T -> T -> bool) (proj : A -> T).

(** fixed/merge_exchange_network_sorter.h:109-118. *)
Definition merge_exchange_network_sorter (n : nat) : range_prog A := fun first _ =>
  match merge_exchange_index_pairs n with
  | None => nofuel
  | Some pairs => swap_index_pairs comp proj first pairs
  end.

(** fixed/odd_even_merge_network_sorter.h:96-105. *)
Definition odd_even_merge_network_sorter (n : nat) : range_prog A := fun first _ =>
  match odd_even_merge_index_pairs n with
  | None => nofuel
  | Some pairs => swap_index_pairs comp proj first pairs
  end.

End Sorters.
