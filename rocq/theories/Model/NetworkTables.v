(** The tables of detail/sorting_network/sort<N>.h, copied by tools/gen_tables.py from the source
    text: [swaps<N>] is the sequence of iter_swap_if calls of operator() (offsets from [first]),
    [pairs<N>] the array returned by index_pairs(). *)
From Coq Require Import List NArith.
Import ListNotations.
Local Open Scope N_scope.

(** detail/sorting_network/sort2.h, operator(). *)
Definition swaps2 : list (N * N) :=
  [(0,1)].
(** detail/sorting_network/sort2.h, index_pairs(). *)
Definition pairs2 : list (N * N) :=
  [(0,1)].

(** detail/sorting_network/sort3.h, operator(). *)
Definition swaps3 : list (N * N) :=
  [(0,1); (1,2); (0,1)].
(** detail/sorting_network/sort3.h, index_pairs(). *)
Definition pairs3 : list (N * N) :=
  [(0,1); (1,2); (0,1)].

(** detail/sorting_network/sort4.h, operator(). *)
Definition swaps4 : list (N * N) :=
  [(0,2); (1,3); (0,1); (2,3); (1,2)].
(** detail/sorting_network/sort4.h, index_pairs(). *)
Definition pairs4 : list (N * N) :=
  [(0,2); (1,3); (0,1); (2,3); (1,2)].

(** detail/sorting_network/sort5.h, operator(). *)
Definition swaps5 : list (N * N) :=
  [(0,3); (1,4); (0,2); (1,3); (0,1); (2,4); (1,2); (3,4); (2,3)].
(** detail/sorting_network/sort5.h, index_pairs(). *)
Definition pairs5 : list (N * N) :=
  [(0,3); (1,4); (0,2); (1,3); (0,1); (2,4); (1,2); (3,4); (2,3)].

(** detail/sorting_network/sort6.h, operator(). *)
Definition swaps6 : list (N * N) :=
  [(0,5); (1,3); (2,4); (1,2); (3,4); (0,3); (2,5); (0,1); (2,3); (4,5); (1,2); (3,4)].
(** detail/sorting_network/sort6.h, index_pairs(). *)
Definition pairs6 : list (N * N) :=
  [(0,5); (1,3); (2,4); (1,2); (3,4); (0,3); (2,5); (0,1); (2,3); (4,5); (1,2); (3,4)].

(** detail/sorting_network/sort7.h, operator(). *)
Definition swaps7 : list (N * N) :=
  [(0,6); (2,3); (4,5); (0,2); (1,4); (3,6); (0,1); (2,5); (3,4); (1,2); (4,6); (2,3); (4,5); (1,2);
   (3,4); (5,6)].
(** detail/sorting_network/sort7.h, index_pairs(). *)
Definition pairs7 : list (N * N) :=
  [(0,6); (2,3); (4,5); (0,2); (1,4); (3,6); (0,1); (2,5); (3,4); (1,2); (4,6); (2,3); (4,5); (1,2);
   (3,4); (5,6)].

(** detail/sorting_network/sort8.h, operator(). *)
Definition swaps8 : list (N * N) :=
  [(0,2); (1,3); (4,6); (5,7); (0,4); (1,5); (2,6); (3,7); (0,1); (2,3); (4,5); (6,7); (2,4); (3,5);
   (1,4); (3,6); (1,2); (3,4); (5,6)].
(** detail/sorting_network/sort8.h, index_pairs(). *)
Definition pairs8 : list (N * N) :=
  [(0,2); (1,3); (4,6); (5,7); (0,4); (1,5); (2,6); (3,7); (0,1); (2,3); (4,5); (6,7); (2,4); (3,5);
   (1,4); (3,6); (1,2); (3,4); (5,6)].

(** detail/sorting_network/sort9.h, operator(). *)
Definition swaps9 : list (N * N) :=
  [(0,3); (1,7); (2,5); (4,8); (0,7); (2,4); (3,8); (5,6); (0,2); (1,3); (4,5); (7,8); (1,4); (3,6);
   (5,7); (0,1); (2,4); (3,5); (6,8); (2,3); (4,5); (6,7); (1,2); (3,4); (5,6)].
(** detail/sorting_network/sort9.h, index_pairs(). *)
Definition pairs9 : list (N * N) :=
  [(0,3); (1,7); (2,5); (4,8); (0,7); (2,4); (3,8); (5,6); (0,2); (1,3); (4,5); (7,8); (1,4); (3,6);
   (5,7); (0,1); (2,4); (3,5); (6,8); (2,3); (4,5); (6,7); (1,2); (3,4); (5,6)].

(** detail/sorting_network/sort10.h, operator(). *)
Definition swaps10 : list (N * N) :=
  [(0,8); (1,9); (2,7); (3,5); (4,6); (0,2); (1,4); (5,8); (7,9); (0,3); (2,4); (5,7); (6,9); (0,1);
   (3,6); (8,9); (1,5); (2,3); (4,8); (6,7); (1,2); (3,5); (4,6); (7,8); (2,3); (4,5); (6,7); (3,4);
   (5,6)].
(** detail/sorting_network/sort10.h, index_pairs(). *)
Definition pairs10 : list (N * N) :=
  [(0,8); (1,9); (2,7); (3,5); (4,6); (0,2); (1,4); (5,8); (7,9); (0,3); (2,4); (5,7); (6,9); (0,1);
   (3,6); (8,9); (1,5); (2,3); (4,8); (6,7); (1,2); (3,5); (4,6); (7,8); (2,3); (4,5); (6,7); (3,4);
   (5,6)].

(** detail/sorting_network/sort11.h, operator(). *)
Definition swaps11 : list (N * N) :=
  [(0,9); (1,6); (2,4); (3,7); (5,8); (0,1); (3,5); (4,10); (6,9); (7,8); (1,3); (2,5); (4,7); (8,10);
   (0,4); (1,2); (3,7); (5,9); (6,8); (0,1); (2,6); (4,5); (7,8); (9,10); (2,4); (3,6); (5,7);
   (8,9); (1,2); (3,4); (5,6); (7,8); (2,3); (4,5); (6,7)].
(** detail/sorting_network/sort11.h, index_pairs(). *)
Definition pairs11 : list (N * N) :=
  [(0,9); (1,6); (2,4); (3,7); (5,8); (0,1); (3,5); (4,10); (6,9); (7,8); (1,3); (2,5); (4,7); (8,10);
   (0,4); (1,2); (3,7); (5,9); (6,8); (0,1); (2,6); (4,5); (7,8); (9,10); (2,4); (3,6); (5,7);
   (8,9); (1,2); (3,4); (5,6); (7,8); (2,3); (4,5); (6,7)].

(** detail/sorting_network/sort12.h, operator(). *)
Definition swaps12 : list (N * N) :=
  [(0,8); (1,7); (2,6); (3,11); (4,10); (5,9); (0,1); (2,5); (3,4); (6,9); (7,8); (10,11); (0,2);
   (1,6); (5,10); (9,11); (0,3); (1,2); (4,6); (5,7); (8,11); (9,10); (1,4); (3,5); (6,8); (7,10);
   (1,3); (2,5); (6,9); (8,10); (2,3); (4,5); (6,7); (8,9); (4,6); (5,7); (3,4); (5,6); (7,8)].
(** detail/sorting_network/sort12.h, index_pairs(). *)
Definition pairs12 : list (N * N) :=
  [(0,8); (1,7); (2,6); (3,11); (4,10); (5,9); (0,1); (2,5); (3,4); (6,9); (7,8); (10,11); (0,2);
   (1,6); (5,10); (9,11); (0,3); (1,2); (4,6); (5,7); (8,11); (9,10); (1,4); (3,5); (6,8); (7,10);
   (1,3); (2,5); (6,9); (8,10); (2,3); (4,5); (6,7); (8,9); (4,6); (5,7); (3,4); (5,6); (7,8)].

(** detail/sorting_network/sort13.h, operator(). *)
Definition swaps13 : list (N * N) :=
  [(0,12); (1,10); (2,9); (3,7); (5,11); (6,8); (1,6); (2,3); (4,11); (7,9); (8,10); (0,4); (1,2);
   (3,6); (7,8); (9,10); (11,12); (4,6); (5,9); (8,11); (10,12); (0,5); (3,8); (4,7); (6,11);
   (9,10); (0,1); (2,5); (6,9); (7,8); (10,11); (1,3); (2,4); (5,6); (9,10); (1,2); (3,4); (5,7);
   (6,8); (2,3); (4,5); (6,7); (8,9); (3,4); (5,6)].
(** detail/sorting_network/sort13.h, index_pairs(). *)
Definition pairs13 : list (N * N) :=
  [(0,12); (1,10); (2,9); (3,7); (5,11); (6,8); (1,6); (2,3); (4,11); (7,9); (8,10); (0,4); (1,2);
   (3,6); (7,8); (9,10); (11,12); (4,6); (5,9); (8,11); (10,12); (0,5); (3,8); (4,7); (6,11);
   (9,10); (0,1); (2,5); (6,9); (7,8); (10,11); (1,3); (2,4); (5,6); (9,10); (1,2); (3,4); (5,7);
   (6,8); (2,3); (4,5); (6,7); (8,9); (3,4); (5,6)].

(** detail/sorting_network/sort14.h, operator(). *)
Definition swaps14 : list (N * N) :=
  [(0,1); (2,3); (4,5); (6,7); (8,9); (10,11); (12,13); (0,2); (1,3); (4,8); (5,9); (10,12); (11,13);
   (0,4); (1,2); (3,7); (5,8); (6,10); (9,13); (11,12); (0,6); (1,5); (3,9); (4,10); (7,13); (8,12);
   (2,10); (3,11); (4,6); (7,9); (1,3); (2,8); (5,11); (6,7); (10,12); (1,4); (2,6); (3,5); (7,11);
   (8,10); (9,12); (2,4); (3,6); (5,8); (7,10); (9,11); (3,4); (5,6); (7,8); (9,10); (6,7)].
(** detail/sorting_network/sort14.h, index_pairs(). *)
Definition pairs14 : list (N * N) :=
  [(0,1); (2,3); (4,5); (6,7); (8,9); (10,11); (12,13); (0,2); (1,3); (4,8); (5,9); (10,12); (11,13);
   (0,4); (1,2); (3,7); (5,8); (6,10); (9,13); (11,12); (0,6); (1,5); (3,9); (4,10); (7,13); (8,12);
   (2,10); (3,11); (4,6); (7,9); (1,3); (2,8); (5,11); (6,7); (10,12); (1,4); (2,6); (3,5); (7,11);
   (8,10); (9,12); (2,4); (3,6); (5,8); (7,10); (9,11); (3,4); (5,6); (7,8); (9,10); (6,7)].

(** detail/sorting_network/sort15.h, operator(). *)
Definition swaps15 : list (N * N) :=
  [(1,2); (3,10); (4,14); (5,8); (6,13); (7,12); (9,11); (0,14); (1,5); (2,8); (3,7); (6,9); (10,12);
   (11,13); (0,7); (1,6); (2,9); (4,10); (5,11); (8,13); (12,14); (0,6); (2,4); (3,5); (7,11);
   (8,10); (9,12); (13,14); (0,3); (1,2); (4,7); (5,9); (6,8); (10,11); (12,13); (0,1); (2,3);
   (4,6); (7,9); (10,12); (11,13); (1,2); (3,5); (8,10); (11,12); (3,4); (5,6); (7,8); (9,10);
   (2,3); (4,5); (6,7); (8,9); (10,11); (5,6); (7,8)].
(** detail/sorting_network/sort15.h, index_pairs(). *)
Definition pairs15 : list (N * N) :=
  [(1,2); (3,10); (4,14); (5,8); (6,13); (7,12); (9,11); (0,14); (1,5); (2,8); (3,7); (6,9); (10,12);
   (11,13); (0,7); (1,6); (2,9); (4,10); (5,11); (8,13); (12,14); (0,6); (2,4); (3,5); (7,11);
   (8,10); (9,12); (13,14); (0,3); (1,2); (4,7); (5,9); (6,8); (10,11); (12,13); (0,1); (2,3);
   (4,6); (7,9); (10,12); (11,13); (1,2); (3,5); (8,10); (11,12); (3,4); (5,6); (7,8); (9,10);
   (2,3); (4,5); (6,7); (8,9); (10,11); (5,6); (7,8)].

(** detail/sorting_network/sort16.h, operator(). *)
Definition swaps16 : list (N * N) :=
  [(0,13); (1,12); (2,15); (3,14); (4,8); (5,6); (7,11); (9,10); (0,5); (1,7); (2,9); (3,4); (6,13);
   (8,14); (10,15); (11,12); (0,1); (2,3); (4,5); (6,8); (7,9); (10,11); (12,13); (14,15); (0,2);
   (1,3); (4,10); (5,11); (6,7); (8,9); (12,14); (13,15); (1,2); (3,12); (4,6); (5,7); (8,10);
   (9,11); (13,14); (1,4); (2,6); (5,8); (7,10); (9,13); (11,14); (2,4); (3,6); (9,12); (11,13);
   (3,5); (6,8); (7,9); (10,12); (3,4); (5,6); (7,8); (9,10); (11,12); (6,7); (8,9)].
(** detail/sorting_network/sort16.h, index_pairs(). *)
Definition pairs16 : list (N * N) :=
  [(0,13); (1,12); (2,15); (3,14); (4,8); (5,6); (7,11); (9,10); (0,5); (1,7); (2,9); (3,4); (6,13);
   (8,14); (10,15); (11,12); (0,1); (2,3); (4,5); (6,8); (7,9); (10,11); (12,13); (14,15); (0,2);
   (1,3); (4,10); (5,11); (6,7); (8,9); (12,14); (13,15); (1,2); (3,12); (4,6); (5,7); (8,10);
   (9,11); (13,14); (1,4); (2,6); (5,8); (7,10); (9,13); (11,14); (2,4); (3,6); (9,12); (11,13);
   (3,5); (6,8); (7,9); (10,12); (3,4); (5,6); (7,8); (9,10); (11,12); (6,7); (8,9)].

(** detail/sorting_network/sort17.h, operator(). *)
Definition swaps17 : list (N * N) :=
  [(0,11); (1,15); (2,10); (3,5); (4,6); (8,12); (9,16); (13,14); (0,6); (1,13); (2,8); (4,14); (5,15);
   (7,11); (0,8); (3,7); (4,9); (6,16); (10,11); (12,14); (0,2); (1,4); (5,6); (7,13); (8,9);
   (10,12); (11,14); (15,16); (0,3); (2,5); (6,11); (7,10); (9,13); (12,15); (14,16); (0,1); (3,4);
   (5,10); (6,9); (7,8); (11,15); (13,14); (1,2); (3,7); (4,8); (6,12); (11,13); (14,15); (1,3);
   (2,7); (4,5); (9,11); (10,12); (13,14); (2,3); (4,6); (5,7); (8,10); (3,4); (6,8); (7,9);
   (10,12); (5,6); (7,8); (9,10); (11,12); (4,5); (6,7); (8,9); (10,11); (12,13)].
(** detail/sorting_network/sort17.h, index_pairs(). *)
Definition pairs17 : list (N * N) :=
  [(0,11); (1,15); (2,10); (3,5); (4,6); (8,12); (9,16); (13,14); (0,6); (1,13); (2,8); (4,14); (5,15);
   (7,11); (0,8); (3,7); (4,9); (6,16); (10,11); (12,14); (0,2); (1,4); (5,6); (7,13); (8,9);
   (10,12); (11,14); (15,16); (0,3); (2,5); (6,11); (7,10); (9,13); (12,15); (14,16); (0,1); (3,4);
   (5,10); (6,9); (7,8); (11,15); (13,14); (1,2); (3,7); (4,8); (6,12); (11,13); (14,15); (1,3);
   (2,7); (4,5); (9,11); (10,12); (13,14); (2,3); (4,6); (5,7); (8,10); (3,4); (6,8); (7,9);
   (10,12); (5,6); (7,8); (9,10); (11,12); (4,5); (6,7); (8,9); (10,11); (12,13)].

(** detail/sorting_network/sort18.h, operator(). *)
Definition swaps18 : list (N * N) :=
  [(0,1); (2,3); (4,5); (6,7); (8,9); (10,11); (12,13); (14,15); (16,17); (0,2); (1,3); (4,12); (5,13);
   (6,8); (9,11); (14,16); (15,17); (0,14); (1,16); (2,15); (3,17); (0,6); (1,10); (2,9); (7,16);
   (8,15); (11,17); (1,4); (3,9); (5,7); (8,14); (10,12); (13,16); (0,1); (2,5); (3,13); (4,14);
   (7,9); (8,10); (12,15); (16,17); (1,2); (3,5); (4,6); (11,13); (12,14); (15,16); (4,8); (5,12);
   (6,10); (7,11); (9,13); (1,4); (2,8); (3,6); (5,7); (9,15); (10,12); (11,14); (13,16); (2,4);
   (5,8); (6,10); (7,11); (9,12); (13,15); (3,5); (6,8); (7,10); (9,11); (12,14); (3,4); (5,6);
   (7,8); (9,10); (11,12); (13,14)].
(** detail/sorting_network/sort18.h, index_pairs(). *)
Definition pairs18 : list (N * N) :=
  [(0,1); (2,3); (4,5); (6,7); (8,9); (10,11); (12,13); (14,15); (16,17); (0,2); (1,3); (4,12); (5,13);
   (6,8); (9,11); (14,16); (15,17); (0,14); (1,16); (2,15); (3,17); (0,6); (1,10); (2,9); (7,16);
   (8,15); (11,17); (1,4); (3,9); (5,7); (8,14); (10,12); (13,16); (0,1); (2,5); (3,13); (4,14);
   (7,9); (8,10); (12,15); (16,17); (1,2); (3,5); (4,6); (11,13); (12,14); (15,16); (4,8); (5,12);
   (6,10); (7,11); (9,13); (1,4); (2,8); (3,6); (5,7); (9,15); (10,12); (11,14); (13,16); (2,4);
   (5,8); (6,10); (7,11); (9,12); (13,15); (3,5); (6,8); (7,10); (9,11); (12,14); (3,4); (5,6);
   (7,8); (9,10); (11,12); (13,14)].

(** detail/sorting_network/sort19.h, operator(). *)
Definition swaps19 : list (N * N) :=
  [(0,12); (1,4); (2,8); (3,5); (6,17); (7,11); (9,14); (10,13); (15,16); (0,2); (1,7); (3,6); (4,11);
   (5,17); (8,12); (10,15); (13,16); (14,18); (3,10); (4,14); (5,15); (6,13); (7,9); (11,17);
   (16,18); (0,7); (1,10); (4,6); (9,15); (11,16); (12,17); (13,14); (0,3); (2,6); (5,7); (8,11);
   (12,16); (1,8); (2,9); (3,4); (6,15); (7,13); (10,11); (12,18); (1,3); (2,5); (6,9); (7,12);
   (8,10); (11,14); (17,18); (0,1); (2,3); (4,8); (6,10); (9,12); (14,15); (16,17); (1,2); (5,8);
   (6,7); (9,11); (10,13); (14,16); (15,17); (3,6); (4,5); (7,9); (8,10); (11,12); (13,14); (15,16);
   (3,4); (5,6); (7,8); (9,10); (11,13); (12,14); (2,3); (4,5); (6,7); (8,9); (10,11); (12,13);
   (14,15)].
(** detail/sorting_network/sort19.h, index_pairs(). *)
Definition pairs19 : list (N * N) :=
  [(0,12); (1,4); (2,8); (3,5); (6,17); (7,11); (9,14); (10,13); (15,16); (0,2); (1,7); (3,6); (4,11);
   (5,17); (8,12); (10,15); (13,16); (14,18); (3,10); (4,14); (5,15); (6,13); (7,9); (11,17);
   (16,18); (0,7); (1,10); (4,6); (9,15); (11,16); (12,17); (13,14); (0,3); (2,6); (5,7); (8,11);
   (12,16); (1,8); (2,9); (3,4); (6,15); (7,13); (10,11); (12,18); (1,3); (2,5); (6,9); (7,12);
   (8,10); (11,14); (17,18); (0,1); (2,3); (4,8); (6,10); (9,12); (14,15); (16,17); (1,2); (5,8);
   (6,7); (9,11); (10,13); (14,16); (15,17); (3,6); (4,5); (7,9); (8,10); (11,12); (13,14); (15,16);
   (3,4); (5,6); (7,8); (9,10); (11,13); (12,14); (2,3); (4,5); (6,7); (8,9); (10,11); (12,13);
   (14,15)].

(** detail/sorting_network/sort20.h, operator(). *)
Definition swaps20 : list (N * N) :=
  [(0,3); (1,7); (2,5); (4,8); (6,9); (10,13); (11,15); (12,18); (14,17); (16,19); (0,14); (1,11);
   (2,16); (3,17); (4,12); (5,19); (6,10); (7,15); (8,18); (9,13); (0,4); (1,2); (3,8); (5,7);
   (11,16); (12,14); (15,19); (17,18); (1,6); (2,12); (3,5); (4,11); (7,17); (8,15); (13,18);
   (14,16); (0,1); (2,6); (7,10); (9,12); (13,17); (18,19); (1,6); (5,9); (7,11); (8,12); (10,14);
   (13,18); (3,5); (4,7); (8,10); (9,11); (12,15); (14,16); (1,3); (2,4); (5,7); (6,10); (9,13);
   (12,14); (15,17); (16,18); (1,2); (3,4); (6,7); (8,9); (10,11); (12,13); (15,16); (17,18); (2,3);
   (4,6); (5,8); (7,9); (10,12); (11,14); (13,15); (16,17); (4,5); (6,8); (7,10); (9,12); (11,13);
   (14,15); (3,4); (5,6); (7,8); (9,10); (11,12); (13,14); (15,16)].
(** detail/sorting_network/sort20.h, index_pairs(). *)
Definition pairs20 : list (N * N) :=
  [(0,3); (1,7); (2,5); (4,8); (6,9); (10,13); (11,15); (12,18); (14,17); (16,19); (0,14); (1,11);
   (2,16); (3,17); (4,12); (5,19); (6,10); (7,15); (8,18); (9,13); (0,4); (1,2); (3,8); (5,7);
   (11,16); (12,14); (15,19); (17,18); (1,6); (2,12); (3,5); (4,11); (7,17); (8,15); (13,18);
   (14,16); (0,1); (2,6); (7,10); (9,12); (13,17); (18,19); (1,6); (5,9); (7,11); (8,12); (10,14);
   (13,18); (3,5); (4,7); (8,10); (9,11); (12,15); (14,16); (1,3); (2,4); (5,7); (6,10); (9,13);
   (12,14); (15,17); (16,18); (1,2); (3,4); (6,7); (8,9); (10,11); (12,13); (15,16); (17,18); (2,3);
   (4,6); (5,8); (7,9); (10,12); (11,14); (13,15); (16,17); (4,5); (6,8); (7,10); (9,12); (11,13);
   (14,15); (3,4); (5,6); (7,8); (9,10); (11,12); (13,14); (15,16)].

(** detail/sorting_network/sort21.h, operator(). *)
Definition swaps21 : list (N * N) :=
  [(0,1); (2,3); (4,5); (6,7); (8,9); (10,11); (12,13); (14,15); (16,17); (18,19); (0,2); (1,3); (4,6);
   (5,7); (8,10); (9,11); (12,14); (13,15); (16,18); (17,19); (0,8); (1,9); (2,10); (3,11); (4,12);
   (5,13); (6,14); (7,15); (0,4); (1,5); (3,7); (6,20); (8,12); (9,13); (10,14); (15,19); (2,6);
   (3,18); (7,20); (2,16); (3,6); (5,18); (7,17); (11,20); (0,2); (3,8); (6,12); (7,10); (9,16);
   (11,15); (13,17); (14,18); (19,20); (1,7); (2,3); (4,9); (10,11); (13,16); (15,18); (17,19);
   (1,4); (5,10); (6,13); (7,8); (11,14); (12,16); (15,17); (18,19); (1,2); (3,4); (5,6); (10,12);
   (11,13); (14,16); (17,18); (2,3); (4,5); (6,9); (10,11); (12,13); (14,15); (16,17); (6,7); (8,9);
   (15,16); (4,6); (7,8); (9,12); (13,15); (3,4); (5,7); (8,10); (9,11); (12,14); (5,6); (7,8);
   (9,10); (11,12); (13,14)].
(** detail/sorting_network/sort21.h, index_pairs(). *)
Definition pairs21 : list (N * N) :=
  [(0,1); (2,3); (4,5); (6,7); (8,9); (10,11); (12,13); (14,15); (16,17); (18,19); (0,2); (1,3); (4,6);
   (5,7); (8,10); (9,11); (12,14); (13,15); (16,18); (17,19); (0,8); (1,9); (2,10); (3,11); (4,12);
   (5,13); (6,14); (7,15); (0,4); (1,5); (3,7); (6,20); (8,12); (9,13); (10,14); (15,19); (2,6);
   (3,18); (7,20); (2,16); (3,6); (5,18); (7,17); (11,20); (0,2); (3,8); (6,12); (7,10); (9,16);
   (11,15); (13,17); (14,18); (19,20); (1,7); (2,3); (4,9); (10,11); (13,16); (15,18); (17,19);
   (1,4); (5,10); (6,13); (7,8); (11,14); (12,16); (15,17); (18,19); (1,2); (3,4); (5,6); (10,12);
   (11,13); (14,16); (17,18); (2,3); (4,5); (6,9); (10,11); (12,13); (14,15); (16,17); (6,7); (8,9);
   (15,16); (4,6); (7,8); (9,12); (13,15); (3,4); (5,7); (8,10); (9,11); (12,14); (5,6); (7,8);
   (9,10); (11,12); (13,14)].

(** detail/sorting_network/sort22.h, operator(). *)
Definition swaps22 : list (N * N) :=
  [(0,1); (2,3); (4,5); (6,7); (8,9); (10,11); (12,13); (14,15); (16,17); (18,19); (20,21); (0,2);
   (1,3); (4,6); (5,7); (8,12); (9,13); (14,16); (15,17); (18,20); (19,21); (0,4); (1,5); (2,6);
   (3,7); (8,10); (9,12); (11,13); (14,18); (15,19); (16,20); (17,21); (0,14); (1,15); (2,18);
   (3,19); (4,16); (5,17); (6,20); (7,21); (9,11); (10,12); (2,8); (3,11); (6,9); (10,18); (12,15);
   (13,19); (0,2); (1,10); (3,16); (5,18); (6,14); (7,15); (8,12); (9,13); (11,20); (19,21); (2,6);
   (3,10); (4,8); (5,12); (9,16); (11,18); (13,17); (15,19); (1,4); (7,13); (8,14); (9,12); (17,20);
   (1,2); (3,8); (4,6); (7,11); (10,14); (13,18); (15,17); (19,20); (2,4); (5,10); (7,9); (11,16);
   (12,14); (17,19); (5,6); (7,8); (9,11); (10,12); (13,14); (15,16); (3,5); (6,7); (8,10); (9,12);
   (11,13); (14,15); (16,18); (3,4); (5,6); (7,8); (9,10); (11,12); (13,14); (15,16); (17,18)].
(** detail/sorting_network/sort22.h, index_pairs(). *)
Definition pairs22 : list (N * N) :=
  [(0,1); (2,3); (4,5); (6,7); (8,9); (10,11); (12,13); (14,15); (16,17); (18,19); (20,21); (0,2);
   (1,3); (4,6); (5,7); (8,12); (9,13); (14,16); (15,17); (18,20); (19,21); (0,4); (1,5); (2,6);
   (3,7); (8,10); (9,12); (11,13); (14,18); (15,19); (16,20); (17,21); (0,14); (1,15); (2,18);
   (3,19); (4,16); (5,17); (6,20); (7,21); (9,11); (10,12); (2,8); (3,11); (6,9); (10,18); (12,15);
   (13,19); (0,2); (1,10); (3,16); (5,18); (6,14); (7,15); (8,12); (9,13); (11,20); (19,21); (2,6);
   (3,10); (4,8); (5,12); (9,16); (11,18); (13,17); (15,19); (1,4); (7,13); (8,14); (9,12); (17,20);
   (1,2); (3,8); (4,6); (7,11); (10,14); (13,18); (15,17); (19,20); (2,4); (5,10); (7,9); (11,16);
   (12,14); (17,19); (5,6); (7,8); (9,11); (10,12); (13,14); (15,16); (3,5); (6,7); (8,10); (9,12);
   (11,13); (14,15); (16,18); (3,4); (5,6); (7,8); (9,10); (11,12); (13,14); (15,16); (17,18)].

(** detail/sorting_network/sort23.h, operator(). *)
Definition swaps23 : list (N * N) :=
  [(0,1); (2,3); (4,5); (6,7); (8,9); (10,11); (12,13); (14,15); (16,17); (18,19); (20,21); (0,2);
   (1,3); (4,6); (5,7); (8,10); (9,11); (12,14); (13,15); (16,18); (17,19); (21,22); (0,4); (1,5);
   (2,6); (3,7); (8,12); (9,13); (10,14); (11,15); (17,21); (18,20); (19,22); (0,8); (1,9); (2,10);
   (3,11); (4,12); (5,13); (6,14); (7,15); (1,2); (5,18); (7,19); (9,16); (10,21); (12,20); (15,22);
   (5,9); (6,7); (10,18); (11,21); (12,17); (13,20); (14,15); (3,17); (6,16); (7,14); (8,12);
   (15,19); (20,21); (3,4); (5,8); (6,10); (9,12); (13,16); (14,15); (17,18); (19,21); (0,5); (1,8);
   (2,12); (3,9); (4,10); (7,13); (11,17); (14,16); (18,20); (2,6); (3,5); (4,8); (7,11); (10,12);
   (13,18); (14,17); (15,20); (1,3); (2,5); (6,9); (7,10); (11,13); (12,14); (15,18); (16,17);
   (19,20); (2,3); (4,6); (8,9); (11,12); (13,14); (15,16); (17,19); (3,4); (5,6); (7,8); (9,10);
   (12,13); (14,15); (17,18); (4,5); (6,7); (8,9); (10,11); (16,17)].
(** detail/sorting_network/sort23.h, index_pairs(). *)
Definition pairs23 : list (N * N) :=
  [(0,1); (2,3); (4,5); (6,7); (8,9); (10,11); (12,13); (14,15); (16,17); (18,19); (20,21); (0,2);
   (1,3); (4,6); (5,7); (8,10); (9,11); (12,14); (13,15); (16,18); (17,19); (21,22); (0,4); (1,5);
   (2,6); (3,7); (8,12); (9,13); (10,14); (11,15); (17,21); (18,20); (19,22); (0,8); (1,9); (2,10);
   (3,11); (4,12); (5,13); (6,14); (7,15); (1,2); (5,18); (7,19); (9,16); (10,21); (12,20); (15,22);
   (5,9); (6,7); (10,18); (11,21); (12,17); (13,20); (14,15); (3,17); (6,16); (7,14); (8,12);
   (15,19); (20,21); (3,4); (5,8); (6,10); (9,12); (13,16); (14,15); (17,18); (19,21); (0,5); (1,8);
   (2,12); (3,9); (4,10); (7,13); (11,17); (14,16); (18,20); (2,6); (3,5); (4,8); (7,11); (10,12);
   (13,18); (14,17); (15,20); (1,3); (2,5); (6,9); (7,10); (11,13); (12,14); (15,18); (16,17);
   (19,20); (2,3); (4,6); (8,9); (11,12); (13,14); (15,16); (17,19); (3,4); (5,6); (7,8); (9,10);
   (12,13); (14,15); (17,18); (4,5); (6,7); (8,9); (10,11); (16,17)].

(** detail/sorting_network/sort24.h, operator(). *)
Definition swaps24 : list (N * N) :=
  [(0,20); (1,12); (2,16); (3,23); (4,6); (5,10); (7,21); (8,14); (9,15); (11,22); (13,18); (17,19);
   (0,3); (1,11); (2,7); (4,17); (5,13); (6,19); (8,9); (10,18); (12,22); (14,15); (16,21); (20,23);
   (0,1); (2,4); (3,12); (5,8); (6,9); (7,10); (11,20); (13,16); (14,17); (15,18); (19,21); (22,23);
   (2,5); (4,8); (6,11); (7,14); (9,16); (12,17); (15,19); (18,21); (1,8); (3,14); (4,7); (9,20);
   (10,12); (11,13); (15,22); (16,19); (0,7); (1,5); (3,4); (6,11); (8,15); (9,14); (10,13);
   (12,17); (16,23); (18,22); (19,20); (0,2); (1,6); (4,7); (5,9); (8,10); (13,15); (14,18);
   (16,19); (17,22); (21,23); (2,3); (4,5); (6,8); (7,9); (10,11); (12,13); (14,16); (15,17);
   (18,19); (20,21); (1,2); (3,6); (4,10); (7,8); (9,11); (12,14); (13,19); (15,16); (17,20);
   (21,22); (2,3); (5,10); (6,7); (8,9); (13,18); (14,15); (16,17); (20,21); (3,4); (5,7); (10,12);
   (11,13); (16,18); (19,20); (4,6); (8,10); (9,12); (11,14); (13,15); (17,19); (5,6); (7,8);
   (9,10); (11,12); (13,14); (15,16); (17,18)].
(** detail/sorting_network/sort24.h, index_pairs(). *)
Definition pairs24 : list (N * N) :=
  [(0,20); (1,12); (2,16); (3,23); (4,6); (5,10); (7,21); (8,14); (9,15); (11,22); (13,18); (17,19);
   (0,3); (1,11); (2,7); (4,17); (5,13); (6,19); (8,9); (10,18); (12,22); (14,15); (16,21); (20,23);
   (0,1); (2,4); (3,12); (5,8); (6,9); (7,10); (11,20); (13,16); (14,17); (15,18); (19,21); (22,23);
   (2,5); (4,8); (6,11); (7,14); (9,16); (12,17); (15,19); (18,21); (1,8); (3,14); (4,7); (9,20);
   (10,12); (11,13); (15,22); (16,19); (0,7); (1,5); (3,4); (6,11); (8,15); (9,14); (10,13);
   (12,17); (16,23); (18,22); (19,20); (0,2); (1,6); (4,7); (5,9); (8,10); (13,15); (14,18);
   (16,19); (17,22); (21,23); (2,3); (4,5); (6,8); (7,9); (10,11); (12,13); (14,16); (15,17);
   (18,19); (20,21); (1,2); (3,6); (4,10); (7,8); (9,11); (12,14); (13,19); (15,16); (17,20);
   (21,22); (2,3); (5,10); (6,7); (8,9); (13,18); (14,15); (16,17); (20,21); (3,4); (5,7); (10,12);
   (11,13); (16,18); (19,20); (4,6); (8,10); (9,12); (11,14); (13,15); (17,19); (5,6); (7,8);
   (9,10); (11,12); (13,14); (15,16); (17,18)].

(** detail/sorting_network/sort25.h, operator(). *)
Definition swaps25 : list (N * N) :=
  [(0,1); (2,3); (4,5); (6,7); (8,9); (10,11); (12,13); (14,15); (16,17); (18,19); (20,21); (22,23);
   (0,2); (1,3); (4,6); (5,7); (8,10); (9,11); (12,14); (13,15); (16,18); (17,19); (21,22); (23,24);
   (0,4); (1,5); (2,6); (3,7); (8,12); (9,13); (10,14); (11,15); (18,21); (20,23); (22,24); (0,8);
   (1,9); (2,10); (3,11); (4,12); (5,13); (6,14); (7,15); (16,20); (17,22); (19,24); (21,23);
   (1,18); (3,21); (5,23); (6,19); (11,14); (15,24); (1,16); (3,17); (6,9); (7,11); (13,19);
   (14,23); (0,1); (2,16); (3,8); (7,20); (10,13); (11,22); (15,23); (1,2); (5,10); (7,18); (11,21);
   (15,20); (19,22); (4,7); (5,6); (9,18); (10,17); (11,12); (13,21); (14,15); (19,20); (22,23);
   (3,4); (7,8); (9,10); (11,16); (12,17); (13,18); (19,21); (20,22); (1,3); (2,4); (5,11); (6,16);
   (7,9); (8,10); (12,13); (14,19); (15,18); (2,3); (5,7); (6,9); (8,11); (10,16); (12,14); (15,17);
   (3,5); (4,6); (7,8); (9,11); (10,12); (13,14); (15,16); (17,18); (4,7); (6,8); (9,10); (11,12);
   (13,15); (14,16); (17,19); (18,21); (4,5); (6,7); (8,9); (10,11); (12,13); (14,15); (16,17);
   (18,19); (20,21)].
(** detail/sorting_network/sort25.h, index_pairs(). *)
Definition pairs25 : list (N * N) :=
  [(0,1); (2,3); (4,5); (6,7); (8,9); (10,11); (12,13); (14,15); (16,17); (18,19); (20,21); (22,23);
   (0,2); (1,3); (4,6); (5,7); (8,10); (9,11); (12,14); (13,15); (16,18); (17,19); (21,22); (23,24);
   (0,4); (1,5); (2,6); (3,7); (8,12); (9,13); (10,14); (11,15); (18,21); (20,23); (22,24); (0,8);
   (1,9); (2,10); (3,11); (4,12); (5,13); (6,14); (7,15); (16,20); (17,22); (19,24); (21,23);
   (1,18); (3,21); (5,23); (6,19); (11,14); (15,24); (1,16); (3,17); (6,9); (7,11); (13,19);
   (14,23); (0,1); (2,16); (3,8); (7,20); (10,13); (11,22); (15,23); (1,2); (5,10); (7,18); (11,21);
   (15,20); (19,22); (4,7); (5,6); (9,18); (10,17); (11,12); (13,21); (14,15); (19,20); (22,23);
   (3,4); (7,8); (9,10); (11,16); (12,17); (13,18); (19,21); (20,22); (1,3); (2,4); (5,11); (6,16);
   (7,9); (8,10); (12,13); (14,19); (15,18); (2,3); (5,7); (6,9); (8,11); (10,16); (12,14); (15,17);
   (3,5); (4,6); (7,8); (9,11); (10,12); (13,14); (15,16); (17,18); (4,7); (6,8); (9,10); (11,12);
   (13,15); (14,16); (17,19); (18,21); (4,5); (6,7); (8,9); (10,11); (12,13); (14,15); (16,17);
   (18,19); (20,21)].

(** detail/sorting_network/sort26.h, operator(). *)
Definition swaps26 : list (N * N) :=
  [(0,1); (2,3); (4,21); (5,6); (7,8); (9,10); (11,12); (13,14); (15,16); (17,18); (19,20); (22,23);
   (24,25); (0,24); (1,25); (3,21); (4,22); (5,7); (6,8); (9,11); (10,12); (13,15); (14,16);
   (17,19); (18,20); (0,4); (2,22); (3,23); (5,9); (6,10); (7,11); (8,12); (13,17); (14,18);
   (15,19); (16,20); (21,25); (0,2); (1,3); (4,21); (5,13); (6,14); (7,15); (8,16); (9,17); (10,18);
   (11,19); (12,20); (22,24); (23,25); (0,5); (1,7); (2,4); (3,10); (15,22); (18,24); (20,25);
   (21,23); (2,9); (3,7); (4,14); (5,13); (6,15); (10,19); (11,21); (12,20); (16,23); (18,22);
   (1,5); (2,6); (3,15); (7,17); (8,18); (10,22); (11,13); (12,14); (19,23); (20,24); (1,2); (4,7);
   (5,11); (8,9); (10,12); (13,15); (14,20); (16,17); (18,21); (23,24); (3,8); (4,6); (7,16);
   (9,18); (10,13); (12,15); (17,22); (19,21); (4,5); (6,11); (7,9); (14,19); (16,18); (20,21);
   (2,4); (3,6); (7,10); (8,11); (9,12); (13,16); (14,17); (15,18); (19,22); (21,23); (3,4); (5,8);
   (6,7); (9,10); (11,13); (12,14); (15,16); (17,20); (18,19); (21,22); (5,6); (7,8); (9,11);
   (10,13); (12,15); (14,16); (17,18); (19,20); (4,5); (6,7); (8,9); (10,11); (12,13); (14,15);
   (16,17); (18,19); (20,21)].
(** detail/sorting_network/sort26.h, index_pairs(). *)
Definition pairs26 : list (N * N) :=
  [(0,1); (2,3); (4,21); (5,6); (7,8); (9,10); (11,12); (13,14); (15,16); (17,18); (19,20); (22,23);
   (24,25); (0,24); (1,25); (3,21); (4,22); (5,7); (6,8); (9,11); (10,12); (13,15); (14,16);
   (17,19); (18,20); (0,4); (2,22); (3,23); (5,9); (6,10); (7,11); (8,12); (13,17); (14,18);
   (15,19); (16,20); (21,25); (0,2); (1,3); (4,21); (5,13); (6,14); (7,15); (8,16); (9,17); (10,18);
   (11,19); (12,20); (22,24); (23,25); (0,5); (1,7); (2,4); (3,10); (15,22); (18,24); (20,25);
   (21,23); (2,9); (3,7); (4,14); (5,13); (6,15); (10,19); (11,21); (12,20); (16,23); (18,22);
   (1,5); (2,6); (3,15); (7,17); (8,18); (10,22); (11,13); (12,14); (19,23); (20,24); (1,2); (4,7);
   (5,11); (8,9); (10,12); (13,15); (14,20); (16,17); (18,21); (23,24); (3,8); (4,6); (7,16);
   (9,18); (10,13); (12,15); (17,22); (19,21); (4,5); (6,11); (7,9); (14,19); (16,18); (20,21);
   (2,4); (3,6); (7,10); (8,11); (9,12); (13,16); (14,17); (15,18); (19,22); (21,23); (3,4); (5,8);
   (6,7); (9,10); (11,13); (12,14); (15,16); (17,20); (18,19); (21,22); (5,6); (7,8); (9,11);
   (10,13); (12,15); (14,16); (17,18); (19,20); (4,5); (6,7); (8,9); (10,11); (12,13); (14,15);
   (16,17); (18,19); (20,21)].

(** detail/sorting_network/sort27.h, operator(). *)
Definition swaps27 : list (N * N) :=
  [(0,1); (2,3); (4,5); (6,7); (8,9); (10,11); (12,14); (15,16); (17,18); (19,20); (21,22); (23,24);
   (25,26); (0,2); (1,3); (4,6); (5,7); (8,10); (9,11); (12,13); (15,17); (16,18); (19,21); (20,22);
   (23,25); (24,26); (0,23); (1,24); (2,25); (3,26); (4,8); (5,9); (6,10); (7,11); (13,14); (15,19);
   (16,20); (17,21); (18,22); (0,4); (1,6); (2,19); (3,20); (5,13); (9,21); (11,14); (12,16);
   (17,23); (18,24); (22,26); (5,17); (6,16); (7,22); (9,25); (10,24); (12,15); (13,20); (14,26);
   (1,12); (4,15); (7,23); (10,19); (11,16); (13,18); (20,24); (22,25); (0,1); (6,12); (8,11);
   (9,15); (10,17); (14,24); (16,21); (18,19); (1,4); (2,8); (3,11); (12,15); (14,20); (16,22);
   (21,25); (2,5); (3,17); (8,13); (11,23); (21,22); (24,25); (1,2); (3,10); (5,6); (7,13); (11,15);
   (14,21); (18,23); (20,22); (4,5); (6,9); (7,8); (13,17); (14,16); (19,23); (22,24); (2,4); (3,6);
   (5,7); (8,12); (9,10); (11,13); (14,18); (15,17); (16,19); (21,23); (3,5); (6,8); (7,9); (10,12);
   (11,14); (13,16); (15,18); (17,19); (20,21); (22,23); (5,6); (8,11); (9,10); (12,14); (13,15);
   (17,18); (19,21); (4,5); (6,7); (8,9); (10,11); (12,13); (14,15); (16,17); (18,20); (21,22);
   (3,4); (5,6); (7,8); (9,10); (11,12); (13,14); (15,16); (17,18); (19,20)].
(** detail/sorting_network/sort27.h, index_pairs(). *)
Definition pairs27 : list (N * N) :=
  [(0,1); (2,3); (4,5); (6,7); (8,9); (10,11); (12,14); (15,16); (17,18); (19,20); (21,22); (23,24);
   (25,26); (0,2); (1,3); (4,6); (5,7); (8,10); (9,11); (12,13); (15,17); (16,18); (19,21); (20,22);
   (23,25); (24,26); (0,23); (1,24); (2,25); (3,26); (4,8); (5,9); (6,10); (7,11); (13,14); (15,19);
   (16,20); (17,21); (18,22); (0,4); (1,6); (2,19); (3,20); (5,13); (9,21); (11,14); (12,16);
   (17,23); (18,24); (22,26); (5,17); (6,16); (7,22); (9,25); (10,24); (12,15); (13,20); (14,26);
   (1,12); (4,15); (7,23); (10,19); (11,16); (13,18); (20,24); (22,25); (0,1); (6,12); (8,11);
   (9,15); (10,17); (14,24); (16,21); (18,19); (1,4); (2,8); (3,11); (12,15); (14,20); (16,22);
   (21,25); (2,5); (3,17); (8,13); (11,23); (21,22); (24,25); (1,2); (3,10); (5,6); (7,13); (11,15);
   (14,21); (18,23); (20,22); (4,5); (6,9); (7,8); (13,17); (14,16); (19,23); (22,24); (2,4); (3,6);
   (5,7); (8,12); (9,10); (11,13); (14,18); (15,17); (16,19); (21,23); (3,5); (6,8); (7,9); (10,12);
   (11,14); (13,16); (15,18); (17,19); (20,21); (22,23); (5,6); (8,11); (9,10); (12,14); (13,15);
   (17,18); (19,21); (4,5); (6,7); (8,9); (10,11); (12,13); (14,15); (16,17); (18,20); (21,22);
   (3,4); (5,6); (7,8); (9,10); (11,12); (13,14); (15,16); (17,18); (19,20)].

(** detail/sorting_network/sort28.h, operator(). *)
Definition swaps28 : list (N * N) :=
  [(0,1); (2,3); (4,5); (6,7); (8,9); (10,11); (12,13); (14,15); (16,17); (18,19); (20,21); (22,23);
   (24,25); (26,27); (0,2); (1,3); (4,6); (5,7); (8,10); (9,11); (12,14); (13,15); (16,18); (17,19);
   (20,22); (21,23); (24,26); (25,27); (0,4); (1,5); (2,6); (3,7); (8,12); (9,13); (14,18); (15,19);
   (20,24); (21,25); (22,26); (23,27); (0,20); (1,21); (2,22); (3,23); (4,24); (5,25); (6,26);
   (7,27); (9,17); (10,18); (11,15); (12,16); (1,2); (4,20); (5,6); (7,23); (8,12); (9,16); (10,14);
   (11,18); (13,17); (15,19); (21,22); (25,26); (0,8); (1,9); (2,12); (3,5); (4,10); (6,16); (7,13);
   (11,21); (14,20); (15,25); (17,23); (18,26); (19,27); (22,24); (2,4); (3,7); (5,17); (8,14);
   (9,11); (10,22); (13,19); (16,18); (20,24); (23,25); (1,8); (3,9); (5,11); (6,10); (7,15);
   (12,20); (16,22); (17,21); (18,24); (19,26); (1,2); (4,6); (5,9); (10,16); (11,17); (12,14);
   (13,15); (18,22); (21,23); (25,26); (4,8); (6,12); (7,11); (10,14); (13,17); (15,21); (16,20);
   (19,23); (2,4); (6,8); (7,16); (9,14); (10,12); (11,20); (13,18); (15,17); (19,21); (23,25);
   (3,10); (5,12); (7,9); (11,13); (14,16); (15,22); (17,24); (18,20); (3,6); (5,8); (7,10); (9,12);
   (11,14); (13,16); (15,18); (17,20); (19,22); (21,24); (3,4); (5,6); (7,8); (9,10); (11,12);
   (13,14); (15,16); (17,18); (19,20); (21,22); (23,24)].
(** detail/sorting_network/sort28.h, index_pairs(). *)
Definition pairs28 : list (N * N) :=
  [(0,1); (2,3); (4,5); (6,7); (8,9); (10,11); (12,13); (14,15); (16,17); (18,19); (20,21); (22,23);
   (24,25); (26,27); (0,2); (1,3); (4,6); (5,7); (8,10); (9,11); (12,14); (13,15); (16,18); (17,19);
   (20,22); (21,23); (24,26); (25,27); (0,4); (1,5); (2,6); (3,7); (8,12); (9,13); (14,18); (15,19);
   (20,24); (21,25); (22,26); (23,27); (0,20); (1,21); (2,22); (3,23); (4,24); (5,25); (6,26);
   (7,27); (9,17); (10,18); (11,15); (12,16); (1,2); (4,20); (5,6); (7,23); (8,12); (9,16); (10,14);
   (11,18); (13,17); (15,19); (21,22); (25,26); (0,8); (1,9); (2,12); (3,5); (4,10); (6,16); (7,13);
   (11,21); (14,20); (15,25); (17,23); (18,26); (19,27); (22,24); (2,4); (3,7); (5,17); (8,14);
   (9,11); (10,22); (13,19); (16,18); (20,24); (23,25); (1,8); (3,9); (5,11); (6,10); (7,15);
   (12,20); (16,22); (17,21); (18,24); (19,26); (1,2); (4,6); (5,9); (10,16); (11,17); (12,14);
   (13,15); (18,22); (21,23); (25,26); (4,8); (6,12); (7,11); (10,14); (13,17); (15,21); (16,20);
   (19,23); (2,4); (6,8); (7,16); (9,14); (10,12); (11,20); (13,18); (15,17); (19,21); (23,25);
   (3,10); (5,12); (7,9); (11,13); (14,16); (15,22); (17,24); (18,20); (3,6); (5,8); (7,10); (9,12);
   (11,14); (13,16); (15,18); (17,20); (19,22); (21,24); (3,4); (5,6); (7,8); (9,10); (11,12);
   (13,14); (15,16); (17,18); (19,20); (21,22); (23,24)].

(** detail/sorting_network/sort29.h, operator(). *)
Definition swaps29 : list (N * N) :=
  [(0,1); (2,3); (4,5); (6,7); (8,9); (10,11); (12,13); (14,15); (16,28); (17,26); (18,25); (19,23);
   (21,27); (22,24); (0,2); (1,3); (4,6); (5,7); (8,10); (9,11); (12,14); (13,15); (17,22); (18,19);
   (20,27); (23,25); (24,26); (0,4); (1,5); (2,6); (3,7); (8,12); (9,13); (10,14); (11,15); (16,20);
   (17,18); (19,22); (23,24); (25,26); (27,28); (0,8); (1,9); (2,10); (3,11); (4,12); (5,13);
   (6,14); (7,15); (16,18); (20,22); (21,25); (24,27); (26,28); (1,8); (2,24); (4,19); (5,20);
   (6,21); (7,27); (9,18); (10,23); (11,26); (13,22); (14,25); (15,28); (16,17); (0,6); (2,4);
   (3,24); (5,10); (12,19); (13,18); (14,21); (15,25); (20,23); (26,27); (0,16); (1,6); (3,12);
   (4,8); (5,17); (7,24); (14,20); (15,26); (18,21); (19,23); (25,27); (1,5); (2,16); (3,10); (6,9);
   (7,18); (8,17); (11,19); (13,14); (15,22); (21,23); (25,26); (1,2); (3,5); (4,8); (6,16); (7,11);
   (9,17); (10,12); (14,20); (15,18); (19,24); (22,27); (4,6); (9,16); (10,13); (11,19); (12,14);
   (20,21); (22,26); (23,24); (2,4); (3,6); (7,16); (8,9); (11,17); (15,19); (18,23); (24,25);
   (3,4); (5,9); (7,10); (11,13); (12,16); (14,17); (15,20); (19,21); (22,24); (5,8); (6,7); (9,12);
   (10,11); (13,14); (15,16); (17,20); (18,19); (21,23); (24,25); (5,6); (7,8); (9,10); (11,12);
   (13,15); (14,16); (17,18); (19,20); (21,22); (4,5); (6,7); (8,9); (10,11); (12,13); (14,15);
   (16,17); (18,19); (20,21); (22,23)].
(** detail/sorting_network/sort29.h, index_pairs(). *)
Definition pairs29 : list (N * N) :=
  [(0,1); (2,3); (4,5); (6,7); (8,9); (10,11); (12,13); (14,15); (16,28); (17,26); (18,25); (19,23);
   (21,27); (22,24); (0,2); (1,3); (4,6); (5,7); (8,10); (9,11); (12,14); (13,15); (17,22); (18,19);
   (20,27); (23,25); (24,26); (0,4); (1,5); (2,6); (3,7); (8,12); (9,13); (10,14); (11,15); (16,20);
   (17,18); (19,22); (23,24); (25,26); (27,28); (0,8); (1,9); (2,10); (3,11); (4,12); (5,13);
   (6,14); (7,15); (16,18); (20,22); (21,25); (24,27); (26,28); (1,8); (2,24); (4,19); (5,20);
   (6,21); (7,27); (9,18); (10,23); (11,26); (13,22); (14,25); (15,28); (16,17); (0,6); (2,4);
   (3,24); (5,10); (12,19); (13,18); (14,21); (15,25); (20,23); (26,27); (0,16); (1,6); (3,12);
   (4,8); (5,17); (7,24); (14,20); (15,26); (18,21); (19,23); (25,27); (1,5); (2,16); (3,10); (6,9);
   (7,18); (8,17); (11,19); (13,14); (15,22); (21,23); (25,26); (1,2); (3,5); (4,8); (6,16); (7,11);
   (9,17); (10,12); (14,20); (15,18); (19,24); (22,27); (4,6); (9,16); (10,13); (11,19); (12,14);
   (20,21); (22,26); (23,24); (2,4); (3,6); (7,16); (8,9); (11,17); (15,19); (18,23); (24,25);
   (3,4); (5,9); (7,10); (11,13); (12,16); (14,17); (15,20); (19,21); (22,24); (5,8); (6,7); (9,12);
   (10,11); (13,14); (15,16); (17,20); (18,19); (21,23); (24,25); (5,6); (7,8); (9,10); (11,12);
   (13,15); (14,16); (17,18); (19,20); (21,22); (4,5); (6,7); (8,9); (10,11); (12,13); (14,15);
   (16,17); (18,19); (20,21); (22,23)].

(** detail/sorting_network/sort30.h, operator(). *)
Definition swaps30 : list (N * N) :=
  [(0,1); (2,3); (4,5); (6,7); (8,9); (10,11); (12,13); (14,15); (16,17); (18,19); (20,21); (22,23);
   (24,25); (26,27); (28,29); (0,2); (1,3); (4,6); (5,7); (8,10); (9,11); (13,15); (14,16); (18,20);
   (19,21); (22,24); (23,25); (26,28); (27,29); (0,4); (1,5); (2,6); (3,7); (8,14); (9,17); (10,16);
   (12,20); (13,19); (15,21); (22,26); (23,27); (24,28); (25,29); (0,8); (1,9); (2,14); (3,17);
   (4,10); (5,11); (6,16); (12,26); (13,23); (15,27); (18,24); (19,25); (20,28); (21,29); (1,13);
   (2,12); (3,15); (4,18); (5,19); (6,20); (7,21); (8,22); (9,23); (10,24); (11,25); (14,26);
   (16,28); (17,27); (0,4); (2,8); (3,13); (5,9); (6,22); (7,23); (10,12); (11,15); (14,18);
   (16,26); (17,19); (20,24); (21,27); (25,29); (0,2); (1,14); (3,5); (4,8); (9,13); (11,17);
   (12,18); (15,28); (16,20); (21,25); (24,26); (27,29); (2,4); (5,9); (6,14); (7,13); (8,10);
   (15,23); (16,22); (19,21); (20,24); (25,27); (6,8); (7,11); (10,14); (12,16); (13,17); (15,19);
   (18,22); (21,23); (4,6); (7,9); (8,10); (11,13); (12,14); (15,17); (16,18); (19,21); (20,22);
   (23,25); (1,8); (3,18); (5,20); (7,22); (9,24); (10,12); (11,26); (13,15); (14,16); (17,19);
   (21,28); (1,2); (3,10); (5,12); (7,14); (9,16); (11,18); (13,20); (15,22); (17,24); (19,26);
   (27,28); (2,4); (3,6); (5,8); (7,10); (9,12); (11,14); (13,16); (15,18); (17,20); (19,22);
   (21,24); (23,26); (25,27); (3,4); (5,6); (7,8); (9,10); (11,12); (13,14); (15,16); (17,18);
   (19,20); (21,22); (23,24); (25,26)].
(** detail/sorting_network/sort30.h, index_pairs(). *)
Definition pairs30 : list (N * N) :=
  [(0,1); (2,3); (4,5); (6,7); (8,9); (10,11); (12,13); (14,15); (16,17); (18,19); (20,21); (22,23);
   (24,25); (26,27); (28,29); (0,2); (1,3); (4,6); (5,7); (8,10); (9,11); (13,15); (14,16); (18,20);
   (19,21); (22,24); (23,25); (26,28); (27,29); (0,4); (1,5); (2,6); (3,7); (8,14); (9,17); (10,16);
   (12,20); (13,19); (15,21); (22,26); (23,27); (24,28); (25,29); (0,8); (1,9); (2,14); (3,17);
   (4,10); (5,11); (6,16); (12,26); (13,23); (15,27); (18,24); (19,25); (20,28); (21,29); (1,13);
   (2,12); (3,15); (4,18); (5,19); (6,20); (7,21); (8,22); (9,23); (10,24); (11,25); (14,26);
   (16,28); (17,27); (0,4); (2,8); (3,13); (5,9); (6,22); (7,23); (10,12); (11,15); (14,18);
   (16,26); (17,19); (20,24); (21,27); (25,29); (0,2); (1,14); (3,5); (4,8); (9,13); (11,17);
   (12,18); (15,28); (16,20); (21,25); (24,26); (27,29); (2,4); (5,9); (6,14); (7,13); (8,10);
   (15,23); (16,22); (19,21); (20,24); (25,27); (6,8); (7,11); (10,14); (12,16); (13,17); (15,19);
   (18,22); (21,23); (4,6); (7,9); (8,10); (11,13); (12,14); (15,17); (16,18); (19,21); (20,22);
   (23,25); (1,8); (3,18); (5,20); (7,22); (9,24); (10,12); (11,26); (13,15); (14,16); (17,19);
   (21,28); (1,2); (3,10); (5,12); (7,14); (9,16); (11,18); (13,20); (15,22); (17,24); (19,26);
   (27,28); (2,4); (3,6); (5,8); (7,10); (9,12); (11,14); (13,16); (15,18); (17,20); (19,22);
   (21,24); (23,26); (25,27); (3,4); (5,6); (7,8); (9,10); (11,12); (13,14); (15,16); (17,18);
   (19,20); (21,22); (23,24); (25,26)].

(** detail/sorting_network/sort31.h, operator(). *)
Definition swaps31 : list (N * N) :=
  [(0,1); (2,3); (4,5); (6,7); (8,9); (10,11); (12,13); (14,15); (16,17); (18,19); (20,21); (22,23);
   (24,25); (26,27); (28,29); (0,2); (1,3); (4,6); (5,7); (8,10); (9,11); (12,14); (13,15); (16,18);
   (17,19); (20,22); (21,23); (24,26); (25,27); (28,30); (0,4); (1,5); (2,6); (3,7); (8,12); (9,13);
   (10,14); (11,15); (16,20); (17,21); (18,22); (19,23); (24,28); (25,29); (26,30); (0,8); (1,9);
   (2,10); (3,11); (4,12); (5,13); (6,14); (7,15); (16,24); (17,25); (18,26); (19,27); (20,28);
   (21,29); (22,30); (0,16); (1,8); (2,4); (3,12); (5,10); (6,9); (7,14); (11,13); (17,24); (18,20);
   (19,28); (21,26); (22,25); (23,30); (27,29); (1,2); (3,5); (4,8); (6,22); (7,11); (9,25);
   (10,12); (13,14); (17,18); (19,21); (20,24); (23,27); (26,28); (29,30); (1,17); (2,18); (3,19);
   (4,20); (5,10); (7,23); (8,24); (11,27); (12,28); (13,29); (14,30); (21,26); (3,17); (4,16);
   (5,21); (6,18); (7,9); (8,20); (10,26); (11,23); (13,25); (14,28); (15,27); (22,24); (1,4);
   (3,8); (5,16); (7,17); (9,21); (10,22); (11,19); (12,20); (14,24); (15,26); (23,28); (27,30);
   (2,5); (7,8); (9,18); (11,17); (12,16); (13,22); (14,20); (15,19); (23,24); (26,29); (2,4);
   (6,12); (9,16); (10,11); (13,17); (14,18); (15,22); (19,25); (20,21); (27,29); (5,6); (8,12);
   (9,10); (11,13); (14,16); (15,17); (18,20); (19,23); (21,22); (25,26); (3,5); (6,7); (8,9);
   (10,12); (11,14); (13,16); (15,18); (17,20); (19,21); (22,23); (24,25); (26,28); (3,4); (5,6);
   (7,8); (9,10); (11,12); (13,14); (15,16); (17,18); (19,20); (21,22); (23,24); (25,26); (27,28)].
(** detail/sorting_network/sort31.h, index_pairs(). *)
Definition pairs31 : list (N * N) :=
  [(0,1); (2,3); (4,5); (6,7); (8,9); (10,11); (12,13); (14,15); (16,17); (18,19); (20,21); (22,23);
   (24,25); (26,27); (28,29); (0,2); (1,3); (4,6); (5,7); (8,10); (9,11); (12,14); (13,15); (16,18);
   (17,19); (20,22); (21,23); (24,26); (25,27); (28,30); (0,4); (1,5); (2,6); (3,7); (8,12); (9,13);
   (10,14); (11,15); (16,20); (17,21); (18,22); (19,23); (24,28); (25,29); (26,30); (0,8); (1,9);
   (2,10); (3,11); (4,12); (5,13); (6,14); (7,15); (16,24); (17,25); (18,26); (19,27); (20,28);
   (21,29); (22,30); (0,16); (1,8); (2,4); (3,12); (5,10); (6,9); (7,14); (11,13); (17,24); (18,20);
   (19,28); (21,26); (22,25); (23,30); (27,29); (1,2); (3,5); (4,8); (6,22); (7,11); (9,25);
   (10,12); (13,14); (17,18); (19,21); (20,24); (23,27); (26,28); (29,30); (1,17); (2,18); (3,19);
   (4,20); (5,10); (7,23); (8,24); (11,27); (12,28); (13,29); (14,30); (21,26); (3,17); (4,16);
   (5,21); (6,18); (7,9); (8,20); (10,26); (11,23); (13,25); (14,28); (15,27); (22,24); (1,4);
   (3,8); (5,16); (7,17); (9,21); (10,22); (11,19); (12,20); (14,24); (15,26); (23,28); (27,30);
   (2,5); (7,8); (9,18); (11,17); (12,16); (13,22); (14,20); (15,19); (23,24); (26,29); (2,4);
   (6,12); (9,16); (10,11); (13,17); (14,18); (15,22); (19,25); (20,21); (27,29); (5,6); (8,12);
   (9,10); (11,13); (14,16); (15,17); (18,20); (19,23); (21,22); (25,26); (3,5); (6,7); (8,9);
   (10,12); (11,14); (13,16); (15,18); (17,20); (19,21); (22,23); (24,25); (26,28); (3,4); (5,6);
   (7,8); (9,10); (11,12); (13,14); (15,16); (17,18); (19,20); (21,22); (23,24); (25,26); (27,28)].

(** detail/sorting_network/sort32.h, operator(). *)
Definition swaps32 : list (N * N) :=
  [(0,1); (2,3); (4,5); (6,7); (8,9); (10,11); (12,13); (14,15); (16,17); (18,19); (20,21); (22,23);
   (24,25); (26,27); (28,29); (30,31); (0,2); (1,3); (4,6); (5,7); (8,10); (9,11); (12,14); (13,15);
   (16,18); (17,19); (20,22); (21,23); (24,26); (25,27); (28,30); (29,31); (0,4); (1,5); (2,6);
   (3,7); (8,12); (9,13); (10,14); (11,15); (16,20); (17,21); (18,22); (19,23); (24,28); (25,29);
   (26,30); (27,31); (0,8); (1,9); (2,10); (3,11); (4,12); (5,13); (6,14); (7,15); (16,24); (17,25);
   (18,26); (19,27); (20,28); (21,29); (22,30); (23,31); (0,16); (1,8); (2,4); (3,12); (5,10);
   (6,9); (7,14); (11,13); (15,31); (17,24); (18,20); (19,28); (21,26); (22,25); (23,30); (27,29);
   (1,2); (3,5); (4,8); (6,22); (7,11); (9,25); (10,12); (13,14); (17,18); (19,21); (20,24);
   (23,27); (26,28); (29,30); (1,17); (2,18); (3,19); (4,20); (5,10); (7,23); (8,24); (11,27);
   (12,28); (13,29); (14,30); (21,26); (3,17); (4,16); (5,21); (6,18); (7,9); (8,20); (10,26);
   (11,23); (13,25); (14,28); (15,27); (22,24); (1,4); (3,8); (5,16); (7,17); (9,21); (10,22);
   (11,19); (12,20); (14,24); (15,26); (23,28); (27,30); (2,5); (7,8); (9,18); (11,17); (12,16);
   (13,22); (14,20); (15,19); (23,24); (26,29); (2,4); (6,12); (9,16); (10,11); (13,17); (14,18);
   (15,22); (19,25); (20,21); (27,29); (5,6); (8,12); (9,10); (11,13); (14,16); (15,17); (18,20);
   (19,23); (21,22); (25,26); (3,5); (6,7); (8,9); (10,12); (11,14); (13,16); (15,18); (17,20);
   (19,21); (22,23); (24,25); (26,28); (3,4); (5,6); (7,8); (9,10); (11,12); (13,14); (15,16);
   (17,18); (19,20); (21,22); (23,24); (25,26); (27,28)].
(** detail/sorting_network/sort32.h, index_pairs(). *)
Definition pairs32 : list (N * N) :=
  [(0,1); (2,3); (4,5); (6,7); (8,9); (10,11); (12,13); (14,15); (16,17); (18,19); (20,21); (22,23);
   (24,25); (26,27); (28,29); (30,31); (0,2); (1,3); (4,6); (5,7); (8,10); (9,11); (12,14); (13,15);
   (16,18); (17,19); (20,22); (21,23); (24,26); (25,27); (28,30); (29,31); (0,4); (1,5); (2,6);
   (3,7); (8,12); (9,13); (10,14); (11,15); (16,20); (17,21); (18,22); (19,23); (24,28); (25,29);
   (26,30); (27,31); (0,8); (1,9); (2,10); (3,11); (4,12); (5,13); (6,14); (7,15); (16,24); (17,25);
   (18,26); (19,27); (20,28); (21,29); (22,30); (23,31); (0,16); (1,8); (2,4); (3,12); (5,10);
   (6,9); (7,14); (11,13); (15,31); (17,24); (18,20); (19,28); (21,26); (22,25); (23,30); (27,29);
   (1,2); (3,5); (4,8); (6,22); (7,11); (9,25); (10,12); (13,14); (17,18); (19,21); (20,24);
   (23,27); (26,28); (29,30); (1,17); (2,18); (3,19); (4,20); (5,10); (7,23); (8,24); (11,27);
   (12,28); (13,29); (14,30); (21,26); (3,17); (4,16); (5,21); (6,18); (7,9); (8,20); (10,26);
   (11,23); (13,25); (14,28); (15,27); (22,24); (1,4); (3,8); (5,16); (7,17); (9,21); (10,22);
   (11,19); (12,20); (14,24); (15,26); (23,28); (27,30); (2,5); (7,8); (9,18); (11,17); (12,16);
   (13,22); (14,20); (15,19); (23,24); (26,29); (2,4); (6,12); (9,16); (10,11); (13,17); (14,18);
   (15,22); (19,25); (20,21); (27,29); (5,6); (8,12); (9,10); (11,13); (14,16); (15,17); (18,20);
   (19,23); (21,22); (25,26); (3,5); (6,7); (8,9); (10,12); (11,14); (13,16); (15,18); (17,20);
   (19,21); (22,23); (24,25); (26,28); (3,4); (5,6); (7,8); (9,10); (11,12); (13,14); (15,16);
   (17,18); (19,20); (21,22); (23,24); (25,26); (27,28)].

(** detail/sorting_network/sort33.h, operator(). *)
Definition swaps33 : list (N * N) :=
  [(0,1); (2,3); (4,5); (6,7); (8,9); (10,11); (12,13); (14,15); (16,17); (18,19); (20,21); (22,23);
   (24,25); (26,27); (28,29); (30,31); (0,2); (1,3); (4,6); (5,7); (8,10); (9,11); (12,14); (13,15);
   (16,18); (17,19); (20,22); (21,23); (24,26); (25,27); (28,30); (29,31); (0,4); (1,5); (2,6);
   (3,7); (8,12); (9,13); (10,14); (11,15); (16,20); (17,21); (18,22); (19,23); (24,28); (25,29);
   (26,30); (27,31); (0,8); (1,9); (2,10); (3,11); (4,12); (5,13); (6,14); (7,15); (16,24); (17,25);
   (18,26); (19,27); (20,28); (21,29); (22,30); (23,31); (0,16); (1,17); (2,18); (3,19); (4,20);
   (5,21); (6,22); (7,23); (8,24); (9,25); (10,26); (11,27); (12,28); (13,29); (14,30); (15,31);
   (1,4); (2,16); (3,20); (5,18); (6,17); (7,22); (9,24); (10,12); (11,28); (13,26); (14,25);
   (15,29); (19,21); (23,32); (27,30); (1,2); (3,9); (4,16); (6,10); (7,19); (11,17); (12,24);
   (13,23); (15,27); (22,26); (25,28); (29,30); (3,6); (7,12); (9,18); (10,20); (13,14); (15,28);
   (17,22); (21,25); (27,32); (5,13); (6,16); (9,10); (12,20); (14,19); (15,23); (25,26); (30,32);
   (5,8); (11,13); (14,18); (15,21); (19,22); (23,27); (31,32); (4,5); (7,11); (8,16); (12,14);
   (13,24); (15,17); (18,20); (19,21); (22,28); (23,25); (27,29); (1,4); (3,5); (6,8); (7,9);
   (10,11); (13,15); (17,24); (22,23); (26,27); (29,30); (0,1); (2,6); (8,9); (11,16); (12,13);
   (14,17); (15,18); (19,22); (20,24); (25,26); (2,4); (5,8); (6,7); (9,11); (10,12); (13,16);
   (14,15); (17,20); (18,19); (21,24); (23,25); (26,28); (3,4); (5,6); (7,8); (9,10); (11,12);
   (13,14); (15,16); (17,18); (19,20); (21,22); (23,24); (25,26); (27,28); (4,5); (6,7); (8,9);
   (10,11); (12,13); (14,15); (16,17); (18,19); (20,21); (22,23); (24,25); (28,29)].
(** detail/sorting_network/sort33.h, index_pairs(). *)
Definition pairs33 : list (N * N) :=
  [(0,1); (2,3); (4,5); (6,7); (8,9); (10,11); (12,13); (14,15); (16,17); (18,19); (20,21); (22,23);
   (24,25); (26,27); (28,29); (30,31); (0,2); (1,3); (4,6); (5,7); (8,10); (9,11); (12,14); (13,15);
   (16,18); (17,19); (20,22); (21,23); (24,26); (25,27); (28,30); (29,31); (0,4); (1,5); (2,6);
   (3,7); (8,12); (9,13); (10,14); (11,15); (16,20); (17,21); (18,22); (19,23); (24,28); (25,29);
   (26,30); (27,31); (0,8); (1,9); (2,10); (3,11); (4,12); (5,13); (6,14); (7,15); (16,24); (17,25);
   (18,26); (19,27); (20,28); (21,29); (22,30); (23,31); (0,16); (1,17); (2,18); (3,19); (4,20);
   (5,21); (6,22); (7,23); (8,24); (9,25); (10,26); (11,27); (12,28); (13,29); (14,30); (15,31);
   (1,4); (2,16); (3,20); (5,18); (6,17); (7,22); (9,24); (10,12); (11,28); (13,26); (14,25);
   (15,29); (19,21); (23,32); (27,30); (1,2); (3,9); (4,16); (6,10); (7,19); (11,17); (12,24);
   (13,23); (15,27); (22,26); (25,28); (29,30); (3,6); (7,12); (9,18); (10,20); (13,14); (15,28);
   (17,22); (21,25); (27,32); (5,13); (6,16); (9,10); (12,20); (14,19); (15,23); (25,26); (30,32);
   (5,8); (11,13); (14,18); (15,21); (19,22); (23,27); (31,32); (4,5); (7,11); (8,16); (12,14);
   (13,24); (15,17); (18,20); (19,21); (22,28); (23,25); (27,29); (1,4); (3,5); (6,8); (7,9);
   (10,11); (13,15); (17,24); (22,23); (26,27); (29,30); (0,1); (2,6); (8,9); (11,16); (12,13);
   (14,17); (15,18); (19,22); (20,24); (25,26); (2,4); (5,8); (6,7); (9,11); (10,12); (13,16);
   (14,15); (17,20); (18,19); (21,24); (23,25); (26,28); (3,4); (5,6); (7,8); (9,10); (11,12);
   (13,14); (15,16); (17,18); (19,20); (21,22); (23,24); (25,26); (27,28); (4,5); (6,7); (8,9);
   (10,11); (12,13); (14,15); (16,17); (18,19); (20,21); (22,23); (24,25); (28,29)].

(** detail/sorting_network/sort34.h, operator(). *)
Definition swaps34 : list (N * N) :=
  [(0,33); (1,2); (3,4); (5,6); (7,8); (9,10); (11,12); (13,14); (15,16); (17,18); (19,20); (21,22);
   (23,24); (25,26); (27,28); (29,30); (31,32); (1,3); (2,4); (5,7); (6,8); (9,11); (10,12);
   (13,15); (14,16); (17,19); (18,20); (21,23); (22,24); (25,27); (26,28); (29,31); (30,32); (1,5);
   (2,6); (3,7); (4,8); (9,13); (10,14); (11,15); (12,16); (17,21); (18,22); (19,23); (20,24);
   (25,29); (26,30); (27,31); (28,32); (1,9); (2,10); (3,11); (4,12); (5,13); (6,14); (7,15);
   (8,16); (17,25); (18,26); (19,27); (20,28); (21,29); (22,30); (23,31); (24,32); (1,17); (2,18);
   (3,19); (4,20); (5,21); (6,22); (7,23); (8,24); (9,25); (10,26); (11,27); (12,28); (13,29);
   (14,30); (15,31); (16,32); (0,4); (2,3); (5,17); (6,11); (7,10); (8,12); (14,15); (16,28);
   (18,19); (21,25); (22,27); (23,26); (29,33); (30,31); (0,7); (2,9); (4,13); (8,14); (19,25);
   (20,29); (24,31); (26,33); (0,9); (4,18); (7,21); (8,19); (10,20); (12,26); (13,23); (14,25);
   (15,29); (24,33); (0,5); (3,7); (6,10); (9,17); (11,20); (12,15); (13,22); (16,24); (18,21);
   (23,27); (26,30); (28,33); (0,1); (3,5); (4,6); (7,17); (10,13); (11,18); (15,22); (16,26);
   (20,23); (27,29); (28,30); (32,33); (4,9); (6,11); (8,10); (12,15); (13,19); (14,20); (18,21);
   (22,27); (23,25); (24,29); (2,4); (5,9); (6,7); (11,17); (12,18); (13,14); (15,21); (16,22);
   (19,20); (24,28); (26,27); (29,31); (1,2); (3,4); (7,8); (10,17); (12,13); (14,18); (15,19);
   (16,23); (20,21); (25,26); (29,30); (31,32); (2,3); (4,5); (7,9); (8,11); (10,12); (13,17);
   (14,15); (16,20); (18,19); (21,23); (22,25); (24,26); (28,29); (30,31); (6,7); (8,9); (11,12);
   (13,14); (16,17); (19,20); (21,22); (24,25); (26,27); (5,6); (7,8); (10,11); (12,13); (15,16);
   (17,18); (20,21); (22,23); (25,26); (27,28); (9,10); (14,15); (16,17); (18,19); (23,24)].
(** detail/sorting_network/sort34.h, index_pairs(). *)
Definition pairs34 : list (N * N) :=
  [(0,33); (1,2); (3,4); (5,6); (7,8); (9,10); (11,12); (13,14); (15,16); (17,18); (19,20); (21,22);
   (23,24); (25,26); (27,28); (29,30); (31,32); (1,3); (2,4); (5,7); (6,8); (9,11); (10,12);
   (13,15); (14,16); (17,19); (18,20); (21,23); (22,24); (25,27); (26,28); (29,31); (30,32); (1,5);
   (2,6); (3,7); (4,8); (9,13); (10,14); (11,15); (12,16); (17,21); (18,22); (19,23); (20,24);
   (25,29); (26,30); (27,31); (28,32); (1,9); (2,10); (3,11); (4,12); (5,13); (6,14); (7,15);
   (8,16); (17,25); (18,26); (19,27); (20,28); (21,29); (22,30); (23,31); (24,32); (1,17); (2,18);
   (3,19); (4,20); (5,21); (6,22); (7,23); (8,24); (9,25); (10,26); (11,27); (12,28); (13,29);
   (14,30); (15,31); (16,32); (0,4); (2,3); (5,17); (6,11); (7,10); (8,12); (14,15); (16,28);
   (18,19); (21,25); (22,27); (23,26); (29,33); (30,31); (0,7); (2,9); (4,13); (8,14); (19,25);
   (20,29); (24,31); (26,33); (0,9); (4,18); (7,21); (8,19); (10,20); (12,26); (13,23); (14,25);
   (15,29); (24,33); (0,5); (3,7); (6,10); (9,17); (11,20); (12,15); (13,22); (16,24); (18,21);
   (23,27); (26,30); (28,33); (0,1); (3,5); (4,6); (7,17); (10,13); (11,18); (15,22); (16,26);
   (20,23); (27,29); (28,30); (32,33); (4,9); (6,11); (8,10); (12,15); (13,19); (14,20); (18,21);
   (22,27); (23,25); (24,29); (2,4); (5,9); (6,7); (11,17); (12,18); (13,14); (15,21); (16,22);
   (19,20); (24,28); (26,27); (29,31); (1,2); (3,4); (7,8); (10,17); (12,13); (14,18); (15,19);
   (16,23); (20,21); (25,26); (29,30); (31,32); (2,3); (4,5); (7,9); (8,11); (10,12); (13,17);
   (14,15); (16,20); (18,19); (21,23); (22,25); (24,26); (28,29); (30,31); (6,7); (8,9); (11,12);
   (13,14); (16,17); (19,20); (21,22); (24,25); (26,27); (5,6); (7,8); (10,11); (12,13); (15,16);
   (17,18); (20,21); (22,23); (25,26); (27,28); (9,10); (14,15); (16,17); (18,19); (23,24)].

(** detail/sorting_network/sort35.h, operator(). *)
Definition swaps35 : list (N * N) :=
  [(0,1); (2,3); (4,5); (6,7); (8,9); (10,11); (12,13); (14,15); (16,17); (18,19); (20,21); (22,23);
   (24,25); (26,27); (28,29); (30,31); (32,33); (0,2); (1,3); (4,6); (5,7); (8,10); (9,11); (12,14);
   (13,15); (16,18); (17,19); (20,22); (21,23); (24,26); (25,27); (28,30); (29,31); (33,34); (0,4);
   (1,5); (2,6); (3,7); (8,12); (9,13); (10,14); (11,15); (16,20); (17,21); (18,22); (19,23);
   (24,28); (25,29); (26,30); (27,31); (32,33); (0,8); (1,9); (2,10); (3,11); (4,12); (5,13);
   (6,14); (7,15); (16,24); (17,25); (18,26); (19,27); (20,28); (21,29); (22,30); (23,31); (0,16);
   (1,17); (2,18); (3,19); (4,20); (5,21); (6,22); (7,23); (8,24); (9,25); (10,26); (11,27);
   (12,28); (13,29); (14,30); (15,31); (0,32); (1,2); (3,12); (4,8); (5,10); (6,9); (7,11); (13,14);
   (17,18); (19,28); (20,24); (21,26); (22,25); (23,27); (29,30); (31,34); (5,6); (9,19); (14,28);
   (15,31); (16,32); (17,33); (18,24); (21,22); (1,17); (3,16); (9,21); (10,32); (13,33); (14,22);
   (15,20); (19,26); (30,31); (1,3); (2,15); (7,13); (8,17); (10,16); (11,33); (20,32); (23,30);
   (3,4); (5,16); (6,17); (7,15); (11,19); (12,20); (13,24); (23,29); (25,32); (26,33); (1,3);
   (4,8); (5,10); (6,7); (9,12); (13,15); (14,25); (16,18); (19,24); (20,21); (28,32); (29,33);
   (2,5); (10,16); (11,20); (12,14); (17,18); (21,23); (22,25); (26,28); (27,33); (30,32); (2,4);
   (5,8); (9,16); (11,17); (12,13); (14,15); (18,20); (19,26); (21,22); (23,25); (24,28); (27,30);
   (31,33); (2,3); (4,5); (6,9); (7,16); (8,10); (11,12); (13,18); (14,17); (15,20); (19,21);
   (22,24); (23,26); (25,28); (27,29); (31,32); (6,8); (7,9); (10,11); (12,14); (13,16); (15,19);
   (17,18); (20,21); (22,23); (24,26); (25,27); (28,29); (30,31); (5,6); (7,10); (9,11); (12,13);
   (14,16); (15,17); (18,19); (20,22); (21,23); (24,25); (26,27); (29,30); (7,8); (9,10); (11,12);
   (13,14); (15,16); (17,18); (19,20); (21,22); (23,24); (25,26); (27,28)].
(** detail/sorting_network/sort35.h, index_pairs(). *)
Definition pairs35 : list (N * N) :=
  [(0,1); (2,3); (4,5); (6,7); (8,9); (10,11); (12,13); (14,15); (16,17); (18,19); (20,21); (22,23);
   (24,25); (26,27); (28,29); (30,31); (32,33); (0,2); (1,3); (4,6); (5,7); (8,10); (9,11); (12,14);
   (13,15); (16,18); (17,19); (20,22); (21,23); (24,26); (25,27); (28,30); (29,31); (33,34); (0,4);
   (1,5); (2,6); (3,7); (8,12); (9,13); (10,14); (11,15); (16,20); (17,21); (18,22); (19,23);
   (24,28); (25,29); (26,30); (27,31); (32,33); (0,8); (1,9); (2,10); (3,11); (4,12); (5,13);
   (6,14); (7,15); (16,24); (17,25); (18,26); (19,27); (20,28); (21,29); (22,30); (23,31); (0,16);
   (1,17); (2,18); (3,19); (4,20); (5,21); (6,22); (7,23); (8,24); (9,25); (10,26); (11,27);
   (12,28); (13,29); (14,30); (15,31); (0,32); (1,2); (3,12); (4,8); (5,10); (6,9); (7,11); (13,14);
   (17,18); (19,28); (20,24); (21,26); (22,25); (23,27); (29,30); (31,34); (5,6); (9,19); (14,28);
   (15,31); (16,32); (17,33); (18,24); (21,22); (1,17); (3,16); (9,21); (10,32); (13,33); (14,22);
   (15,20); (19,26); (30,31); (1,3); (2,15); (7,13); (8,17); (10,16); (11,33); (20,32); (23,30);
   (3,4); (5,16); (6,17); (7,15); (11,19); (12,20); (13,24); (23,29); (25,32); (26,33); (1,3);
   (4,8); (5,10); (6,7); (9,12); (13,15); (14,25); (16,18); (19,24); (20,21); (28,32); (29,33);
   (2,5); (10,16); (11,20); (12,14); (17,18); (21,23); (22,25); (26,28); (27,33); (30,32); (2,4);
   (5,8); (9,16); (11,17); (12,13); (14,15); (18,20); (19,26); (21,22); (23,25); (24,28); (27,30);
   (31,33); (2,3); (4,5); (6,9); (7,16); (8,10); (11,12); (13,18); (14,17); (15,20); (19,21);
   (22,24); (23,26); (25,28); (27,29); (31,32); (6,8); (7,9); (10,11); (12,14); (13,16); (15,19);
   (17,18); (20,21); (22,23); (24,26); (25,27); (28,29); (30,31); (5,6); (7,10); (9,11); (12,13);
   (14,16); (15,17); (18,19); (20,22); (21,23); (24,25); (26,27); (29,30); (7,8); (9,10); (11,12);
   (13,14); (15,16); (17,18); (19,20); (21,22); (23,24); (25,26); (27,28)].

(** detail/sorting_network/sort36.h, operator(). *)
Definition swaps36 : list (N * N) :=
  [(0,1); (2,3); (4,5); (6,7); (8,9); (10,11); (12,13); (14,15); (16,17); (18,19); (20,21); (22,23);
   (24,25); (26,27); (28,29); (30,31); (32,33); (34,35); (0,34); (1,35); (2,4); (3,5); (6,8); (7,9);
   (10,12); (11,13); (14,16); (15,17); (18,20); (19,21); (22,24); (23,25); (26,28); (27,29);
   (30,32); (31,33); (2,6); (3,7); (4,8); (5,9); (10,14); (11,15); (12,16); (13,17); (18,22);
   (19,23); (20,24); (21,25); (26,30); (27,31); (28,32); (29,33); (2,10); (3,11); (4,12); (5,13);
   (6,14); (7,15); (8,16); (9,17); (18,26); (19,27); (20,28); (21,29); (22,30); (23,31); (24,32);
   (25,33); (2,18); (3,19); (4,20); (5,21); (6,22); (7,23); (8,24); (9,25); (10,26); (11,27);
   (12,28); (13,29); (14,30); (15,31); (16,32); (17,33); (0,2); (1,3); (4,10); (5,11); (8,26);
   (9,27); (12,22); (13,23); (14,20); (15,21); (24,30); (25,31); (32,34); (33,35); (1,10); (2,12);
   (3,22); (11,19); (13,32); (16,24); (23,33); (25,34); (2,18); (3,12); (7,13); (17,33); (22,28);
   (23,32); (3,8); (5,23); (6,18); (7,11); (12,30); (13,19); (16,22); (17,29); (24,28); (27,32);
   (1,6); (4,7); (5,14); (8,20); (9,23); (10,18); (11,13); (12,26); (15,27); (17,25); (21,30);
   (22,24); (28,31); (29,34); (2,4); (3,5); (7,8); (9,15); (12,14); (20,26); (21,23); (27,28);
   (30,32); (31,33); (1,2); (4,6); (7,10); (8,18); (9,22); (11,20); (13,26); (14,16); (15,24);
   (17,27); (19,21); (25,28); (29,31); (33,34); (2,4); (3,7); (5,8); (9,14); (11,12); (13,18);
   (15,16); (17,22); (19,20); (21,26); (23,24); (27,30); (28,32); (31,33); (3,4); (5,11); (6,7);
   (8,12); (9,13); (14,18); (15,19); (16,20); (17,21); (22,26); (23,27); (24,30); (28,29); (31,32);
   (4,6); (7,10); (9,11); (12,15); (13,14); (16,17); (18,19); (20,23); (21,22); (24,26); (25,28);
   (29,31); (5,7); (8,10); (12,13); (14,15); (16,18); (17,19); (20,21); (22,23); (25,27); (28,30);
   (5,6); (8,9); (10,11); (13,14); (15,16); (17,18); (19,20); (21,22); (24,25); (26,27); (29,30);
   (7,8); (9,10); (11,12); (23,24); (25,26); (27,28)].
(** detail/sorting_network/sort36.h, index_pairs(). *)
Definition pairs36 : list (N * N) :=
  [(0,1); (2,3); (4,5); (6,7); (8,9); (10,11); (12,13); (14,15); (16,17); (18,19); (20,21); (22,23);
   (24,25); (26,27); (28,29); (30,31); (32,33); (34,35); (0,34); (1,35); (2,4); (3,5); (6,8); (7,9);
   (10,12); (11,13); (14,16); (15,17); (18,20); (19,21); (22,24); (23,25); (26,28); (27,29);
   (30,32); (31,33); (2,6); (3,7); (4,8); (5,9); (10,14); (11,15); (12,16); (13,17); (18,22);
   (19,23); (20,24); (21,25); (26,30); (27,31); (28,32); (29,33); (2,10); (3,11); (4,12); (5,13);
   (6,14); (7,15); (8,16); (9,17); (18,26); (19,27); (20,28); (21,29); (22,30); (23,31); (24,32);
   (25,33); (2,18); (3,19); (4,20); (5,21); (6,22); (7,23); (8,24); (9,25); (10,26); (11,27);
   (12,28); (13,29); (14,30); (15,31); (16,32); (17,33); (0,2); (1,3); (4,10); (5,11); (8,26);
   (9,27); (12,22); (13,23); (14,20); (15,21); (24,30); (25,31); (32,34); (33,35); (1,10); (2,12);
   (3,22); (11,19); (13,32); (16,24); (23,33); (25,34); (2,18); (3,12); (7,13); (17,33); (22,28);
   (23,32); (3,8); (5,23); (6,18); (7,11); (12,30); (13,19); (16,22); (17,29); (24,28); (27,32);
   (1,6); (4,7); (5,14); (8,20); (9,23); (10,18); (11,13); (12,26); (15,27); (17,25); (21,30);
   (22,24); (28,31); (29,34); (2,4); (3,5); (7,8); (9,15); (12,14); (20,26); (21,23); (27,28);
   (30,32); (31,33); (1,2); (4,6); (7,10); (8,18); (9,22); (11,20); (13,26); (14,16); (15,24);
   (17,27); (19,21); (25,28); (29,31); (33,34); (2,4); (3,7); (5,8); (9,14); (11,12); (13,18);
   (15,16); (17,22); (19,20); (21,26); (23,24); (27,30); (28,32); (31,33); (3,4); (5,11); (6,7);
   (8,12); (9,13); (14,18); (15,19); (16,20); (17,21); (22,26); (23,27); (24,30); (28,29); (31,32);
   (4,6); (7,10); (9,11); (12,15); (13,14); (16,17); (18,19); (20,23); (21,22); (24,26); (25,28);
   (29,31); (5,7); (8,10); (12,13); (14,15); (16,18); (17,19); (20,21); (22,23); (25,27); (28,30);
   (5,6); (8,9); (10,11); (13,14); (15,16); (17,18); (19,20); (21,22); (24,25); (26,27); (29,30);
   (7,8); (9,10); (11,12); (23,24); (25,26); (27,28)].

(** detail/sorting_network/sort37.h, operator(). *)
Definition swaps37 : list (N * N) :=
  [(0,1); (2,3); (4,5); (6,7); (8,9); (10,11); (12,13); (14,15); (16,17); (18,19); (20,21); (22,23);
   (24,25); (26,27); (28,29); (30,31); (32,35); (33,36); (0,2); (1,3); (4,6); (5,7); (8,10); (9,11);
   (12,14); (13,15); (16,18); (17,19); (20,22); (21,23); (24,26); (25,27); (28,30); (29,31);
   (32,34); (33,35); (0,4); (1,5); (2,6); (3,7); (8,12); (9,13); (10,14); (11,15); (16,20); (17,21);
   (18,22); (19,23); (24,28); (25,29); (26,30); (27,31); (32,33); (34,36); (0,8); (1,9); (2,10);
   (3,11); (4,12); (5,13); (6,14); (7,15); (16,24); (17,25); (18,26); (19,27); (20,28); (21,29);
   (22,30); (23,31); (33,34); (35,36); (0,16); (1,17); (2,18); (3,19); (4,20); (5,21); (6,22);
   (7,23); (8,24); (9,25); (10,26); (11,27); (12,28); (13,29); (14,30); (15,31); (34,35); (0,32);
   (1,2); (3,12); (4,8); (5,10); (6,9); (7,11); (13,14); (17,18); (19,28); (20,24); (21,26);
   (22,25); (23,27); (29,30); (31,36); (1,33); (3,6); (7,13); (12,31); (16,32); (18,35); (20,34);
   (21,22); (23,29); (25,26); (2,20); (4,16); (11,25); (12,32); (17,33); (19,34); (21,31); (28,35);
   (3,12); (8,17); (9,21); (10,32); (13,28); (14,33); (15,35); (18,20); (25,31); (2,8); (3,16);
   (5,18); (7,20); (10,19); (14,24); (15,23); (22,33); (27,35); (30,31); (32,34); (1,3); (5,16);
   (6,14); (7,17); (9,10); (11,19); (12,18); (13,22); (20,24); (21,32); (25,33); (26,34); (27,30);
   (31,35); (1,4); (3,5); (6,9); (10,21); (11,13); (12,16); (14,18); (15,22); (17,20); (19,32);
   (23,33); (24,28); (25,26); (29,34); (2,4); (5,8); (7,16); (10,17); (11,14); (13,18); (15,24);
   (19,25); (20,21); (22,28); (23,27); (26,32); (30,34); (3,4); (6,7); (8,12); (9,16); (10,11);
   (13,17); (14,20); (15,19); (18,21); (22,25); (23,29); (24,26); (28,32); (30,33); (31,34); (4,5);
   (6,8); (7,9); (10,12); (11,14); (13,16); (15,17); (18,20); (19,22); (21,24); (23,25); (26,28);
   (27,30); (29,32); (31,33); (5,6); (7,10); (9,12); (11,13); (14,16); (15,18); (17,20); (19,21);
   (22,24); (23,26); (25,28); (27,29); (30,32); (7,8); (9,10); (11,12); (13,14); (15,16); (17,18);
   (19,20); (21,22); (23,24); (25,26); (27,28); (29,30); (31,32)].
(** detail/sorting_network/sort37.h, index_pairs(). *)
Definition pairs37 : list (N * N) :=
  [(0,1); (2,3); (4,5); (6,7); (8,9); (10,11); (12,13); (14,15); (16,17); (18,19); (20,21); (22,23);
   (24,25); (26,27); (28,29); (30,31); (32,35); (33,36); (0,2); (1,3); (4,6); (5,7); (8,10); (9,11);
   (12,14); (13,15); (16,18); (17,19); (20,22); (21,23); (24,26); (25,27); (28,30); (29,31);
   (32,34); (33,35); (0,4); (1,5); (2,6); (3,7); (8,12); (9,13); (10,14); (11,15); (16,20); (17,21);
   (18,22); (19,23); (24,28); (25,29); (26,30); (27,31); (32,33); (34,36); (0,8); (1,9); (2,10);
   (3,11); (4,12); (5,13); (6,14); (7,15); (16,24); (17,25); (18,26); (19,27); (20,28); (21,29);
   (22,30); (23,31); (33,34); (35,36); (0,16); (1,17); (2,18); (3,19); (4,20); (5,21); (6,22);
   (7,23); (8,24); (9,25); (10,26); (11,27); (12,28); (13,29); (14,30); (15,31); (34,35); (0,32);
   (1,2); (3,12); (4,8); (5,10); (6,9); (7,11); (13,14); (17,18); (19,28); (20,24); (21,26);
   (22,25); (23,27); (29,30); (31,36); (1,33); (3,6); (7,13); (12,31); (16,32); (18,35); (20,34);
   (21,22); (23,29); (25,26); (2,20); (4,16); (11,25); (12,32); (17,33); (19,34); (21,31); (28,35);
   (3,12); (8,17); (9,21); (10,32); (13,28); (14,33); (15,35); (18,20); (25,31); (2,8); (3,16);
   (5,18); (7,20); (10,19); (14,24); (15,23); (22,33); (27,35); (30,31); (32,34); (1,3); (5,16);
   (6,14); (7,17); (9,10); (11,19); (12,18); (13,22); (20,24); (21,32); (25,33); (26,34); (27,30);
   (31,35); (1,4); (3,5); (6,9); (10,21); (11,13); (12,16); (14,18); (15,22); (17,20); (19,32);
   (23,33); (24,28); (25,26); (29,34); (2,4); (5,8); (7,16); (10,17); (11,14); (13,18); (15,24);
   (19,25); (20,21); (22,28); (23,27); (26,32); (30,34); (3,4); (6,7); (8,12); (9,16); (10,11);
   (13,17); (14,20); (15,19); (18,21); (22,25); (23,29); (24,26); (28,32); (30,33); (31,34); (4,5);
   (6,8); (7,9); (10,12); (11,14); (13,16); (15,17); (18,20); (19,22); (21,24); (23,25); (26,28);
   (27,30); (29,32); (31,33); (5,6); (7,10); (9,12); (11,13); (14,16); (15,18); (17,20); (19,21);
   (22,24); (23,26); (25,28); (27,29); (30,32); (7,8); (9,10); (11,12); (13,14); (15,16); (17,18);
   (19,20); (21,22); (23,24); (25,26); (27,28); (29,30); (31,32)].

(** detail/sorting_network/sort38.h, operator(). *)
Definition swaps38 : list (N * N) :=
  [(0,1); (2,3); (4,5); (6,7); (8,9); (10,11); (12,13); (14,15); (16,17); (18,19); (20,21); (22,23);
   (24,25); (26,27); (28,29); (30,31); (32,33); (34,35); (36,37); (0,2); (1,3); (4,6); (5,7);
   (8,10); (9,11); (12,14); (13,15); (16,20); (17,21); (22,24); (23,25); (26,28); (27,29); (30,32);
   (31,33); (34,36); (35,37); (0,4); (1,5); (2,6); (3,7); (8,12); (9,13); (10,14); (11,15); (16,18);
   (19,21); (22,26); (23,27); (24,28); (25,29); (30,34); (31,35); (32,36); (33,37); (0,8); (1,9);
   (2,10); (3,11); (4,12); (5,13); (6,14); (7,15); (17,19); (18,20); (22,30); (23,31); (24,32);
   (25,33); (26,34); (27,35); (28,36); (29,37); (0,22); (1,23); (2,24); (3,25); (4,26); (5,27);
   (6,28); (7,29); (8,30); (9,31); (10,32); (11,33); (12,34); (13,35); (14,36); (15,37); (17,18);
   (19,20); (1,2); (3,12); (4,8); (5,10); (6,9); (7,11); (13,14); (23,24); (25,34); (26,30);
   (27,32); (28,31); (29,33); (35,36); (4,17); (5,6); (7,13); (9,10); (11,18); (14,21); (16,23);
   (19,26); (20,33); (24,30); (27,28); (31,32); (3,19); (5,17); (6,22); (8,16); (9,23); (14,28);
   (15,31); (18,34); (20,32); (21,29); (1,8); (4,6); (11,22); (12,14); (13,20); (15,26); (17,24);
   (23,25); (29,36); (31,33); (0,1); (2,11); (3,8); (7,15); (10,12); (13,19); (18,24); (22,30);
   (25,27); (26,35); (29,34); (36,37); (1,4); (2,6); (9,13); (10,17); (11,16); (12,18); (14,22);
   (15,23); (19,25); (20,27); (21,26); (24,28); (31,35); (33,36); (2,3); (5,11); (7,15); (8,9);
   (12,17); (13,16); (14,19); (18,23); (20,25); (21,24); (22,30); (26,32); (28,29); (34,35); (2,4);
   (3,5); (6,11); (7,12); (9,10); (13,14); (15,17); (16,19); (18,21); (20,22); (23,24); (25,30);
   (26,31); (27,28); (32,34); (33,35); (3,4); (5,9); (6,8); (7,13); (10,11); (12,16); (14,15);
   (17,19); (18,20); (21,25); (22,23); (24,30); (26,27); (28,32); (29,31); (33,34); (4,6); (7,10);
   (8,9); (11,13); (12,14); (15,18); (16,17); (19,22); (20,21); (23,25); (24,26); (27,30); (28,29);
   (31,33); (5,6); (7,8); (9,10); (11,12); (13,14); (15,16); (17,18); (19,20); (21,22); (23,24);
   (25,26); (27,28); (29,30); (31,32); (6,7); (8,9); (10,11); (12,13); (14,15); (16,17); (18,19);
   (20,21); (22,23); (24,25); (26,27); (28,29); (30,31)].
(** detail/sorting_network/sort38.h, index_pairs(). *)
Definition pairs38 : list (N * N) :=
  [(0,1); (2,3); (4,5); (6,7); (8,9); (10,11); (12,13); (14,15); (16,17); (18,19); (20,21); (22,23);
   (24,25); (26,27); (28,29); (30,31); (32,33); (34,35); (36,37); (0,2); (1,3); (4,6); (5,7);
   (8,10); (9,11); (12,14); (13,15); (16,20); (17,21); (22,24); (23,25); (26,28); (27,29); (30,32);
   (31,33); (34,36); (35,37); (0,4); (1,5); (2,6); (3,7); (8,12); (9,13); (10,14); (11,15); (16,18);
   (19,21); (22,26); (23,27); (24,28); (25,29); (30,34); (31,35); (32,36); (33,37); (0,8); (1,9);
   (2,10); (3,11); (4,12); (5,13); (6,14); (7,15); (17,19); (18,20); (22,30); (23,31); (24,32);
   (25,33); (26,34); (27,35); (28,36); (29,37); (0,22); (1,23); (2,24); (3,25); (4,26); (5,27);
   (6,28); (7,29); (8,30); (9,31); (10,32); (11,33); (12,34); (13,35); (14,36); (15,37); (17,18);
   (19,20); (1,2); (3,12); (4,8); (5,10); (6,9); (7,11); (13,14); (23,24); (25,34); (26,30);
   (27,32); (28,31); (29,33); (35,36); (4,17); (5,6); (7,13); (9,10); (11,18); (14,21); (16,23);
   (19,26); (20,33); (24,30); (27,28); (31,32); (3,19); (5,17); (6,22); (8,16); (9,23); (14,28);
   (15,31); (18,34); (20,32); (21,29); (1,8); (4,6); (11,22); (12,14); (13,20); (15,26); (17,24);
   (23,25); (29,36); (31,33); (0,1); (2,11); (3,8); (7,15); (10,12); (13,19); (18,24); (22,30);
   (25,27); (26,35); (29,34); (36,37); (1,4); (2,6); (9,13); (10,17); (11,16); (12,18); (14,22);
   (15,23); (19,25); (20,27); (21,26); (24,28); (31,35); (33,36); (2,3); (5,11); (7,15); (8,9);
   (12,17); (13,16); (14,19); (18,23); (20,25); (21,24); (22,30); (26,32); (28,29); (34,35); (2,4);
   (3,5); (6,11); (7,12); (9,10); (13,14); (15,17); (16,19); (18,21); (20,22); (23,24); (25,30);
   (26,31); (27,28); (32,34); (33,35); (3,4); (5,9); (6,8); (7,13); (10,11); (12,16); (14,15);
   (17,19); (18,20); (21,25); (22,23); (24,30); (26,27); (28,32); (29,31); (33,34); (4,6); (7,10);
   (8,9); (11,13); (12,14); (15,18); (16,17); (19,22); (20,21); (23,25); (24,26); (27,30); (28,29);
   (31,33); (5,6); (7,8); (9,10); (11,12); (13,14); (15,16); (17,18); (19,20); (21,22); (23,24);
   (25,26); (27,28); (29,30); (31,32); (6,7); (8,9); (10,11); (12,13); (14,15); (16,17); (18,19);
   (20,21); (22,23); (24,25); (26,27); (28,29); (30,31)].

(** detail/sorting_network/sort39.h, operator(). *)
Definition swaps39 : list (N * N) :=
  [(1,2); (3,6); (4,5); (7,14); (8,9); (10,11); (12,13); (15,38); (16,17); (18,19); (20,21); (22,23);
   (24,25); (26,27); (28,29); (30,31); (32,33); (34,35); (36,37); (0,1); (3,4); (5,6); (7,12);
   (8,10); (9,11); (13,14); (15,36); (16,18); (17,19); (20,22); (21,23); (24,26); (25,27); (28,30);
   (29,31); (32,34); (33,35); (37,38); (0,3); (1,4); (2,5); (7,8); (9,13); (10,12); (11,14);
   (15,32); (16,20); (17,21); (18,22); (19,23); (24,28); (25,29); (26,30); (27,31); (33,37);
   (34,36); (35,38); (0,7); (1,10); (2,9); (3,8); (4,12); (5,13); (6,11); (15,24); (17,20); (19,22);
   (25,33); (26,34); (27,35); (28,32); (29,37); (30,36); (31,38); (0,15); (1,26); (2,25); (3,28);
   (4,30); (5,29); (6,27); (7,24); (8,32); (9,33); (10,34); (11,35); (12,36); (13,37); (14,31);
   (1,2); (4,9); (5,10); (6,8); (7,16); (12,13); (14,21); (18,24); (23,31); (25,26); (27,32);
   (29,34); (30,33); (36,37); (3,18); (4,6); (5,25); (8,9); (10,24); (13,34); (14,29); (15,16);
   (21,35); (23,38); (27,30); (32,33); (4,17); (7,15); (9,20); (10,16); (11,21); (18,28); (19,27);
   (22,33); (23,29); (31,38); (0,7); (1,4); (3,15); (6,9); (10,18); (11,12); (13,22); (14,19);
   (17,25); (20,24); (21,29); (26,28); (27,32); (31,35); (33,37); (2,6); (3,7); (5,14); (8,19);
   (9,16); (10,15); (12,25); (13,26); (20,30); (23,27); (24,34); (29,31); (32,36); (35,38); (1,3);
   (2,15); (4,5); (6,18); (8,17); (9,13); (11,23); (12,19); (16,28); (20,26); (21,32); (22,30);
   (25,27); (29,36); (33,34); (37,38); (2,7); (4,10); (5,8); (6,9); (11,17); (12,14); (13,20);
   (16,18); (19,25); (21,23); (22,28); (24,26); (27,32); (30,33); (31,34); (35,36); (2,3); (6,10);
   (9,15); (11,12); (13,16); (14,17); (18,20); (19,21); (22,24); (23,25); (26,28); (27,29); (31,32);
   (36,37); (3,4); (5,9); (8,15); (11,13); (12,18); (14,16); (17,20); (19,22); (21,26); (23,24);
   (25,28); (27,30); (29,33); (34,36); (4,7); (5,6); (8,9); (10,11); (12,14); (13,15); (16,17);
   (18,19); (20,21); (22,23); (24,26); (25,27); (28,31); (29,30); (32,33); (34,35); (6,7); (8,10);
   (9,11); (12,13); (14,15); (16,18); (17,19); (20,22); (21,23); (24,25); (26,27); (28,29); (30,31);
   (32,34); (5,6); (7,8); (9,10); (11,12); (13,14); (15,16); (17,18); (19,20); (21,22); (23,24);
   (25,26); (27,28); (29,30); (31,32); (33,34)].
(** detail/sorting_network/sort39.h, index_pairs(). *)
Definition pairs39 : list (N * N) :=
  [(1,2); (3,6); (4,5); (7,14); (8,9); (10,11); (12,13); (15,38); (16,17); (18,19); (20,21); (22,23);
   (24,25); (26,27); (28,29); (30,31); (32,33); (34,35); (36,37); (0,1); (3,4); (5,6); (7,12);
   (8,10); (9,11); (13,14); (15,36); (16,18); (17,19); (20,22); (21,23); (24,26); (25,27); (28,30);
   (29,31); (32,34); (33,35); (37,38); (0,3); (1,4); (2,5); (7,8); (9,13); (10,12); (11,14);
   (15,32); (16,20); (17,21); (18,22); (19,23); (24,28); (25,29); (26,30); (27,31); (33,37);
   (34,36); (35,38); (0,7); (1,10); (2,9); (3,8); (4,12); (5,13); (6,11); (15,24); (17,20); (19,22);
   (25,33); (26,34); (27,35); (28,32); (29,37); (30,36); (31,38); (0,15); (1,26); (2,25); (3,28);
   (4,30); (5,29); (6,27); (7,24); (8,32); (9,33); (10,34); (11,35); (12,36); (13,37); (14,31);
   (1,2); (4,9); (5,10); (6,8); (7,16); (12,13); (14,21); (18,24); (23,31); (25,26); (27,32);
   (29,34); (30,33); (36,37); (3,18); (4,6); (5,25); (8,9); (10,24); (13,34); (14,29); (15,16);
   (21,35); (23,38); (27,30); (32,33); (4,17); (7,15); (9,20); (10,16); (11,21); (18,28); (19,27);
   (22,33); (23,29); (31,38); (0,7); (1,4); (3,15); (6,9); (10,18); (11,12); (13,22); (14,19);
   (17,25); (20,24); (21,29); (26,28); (27,32); (31,35); (33,37); (2,6); (3,7); (5,14); (8,19);
   (9,16); (10,15); (12,25); (13,26); (20,30); (23,27); (24,34); (29,31); (32,36); (35,38); (1,3);
   (2,15); (4,5); (6,18); (8,17); (9,13); (11,23); (12,19); (16,28); (20,26); (21,32); (22,30);
   (25,27); (29,36); (33,34); (37,38); (2,7); (4,10); (5,8); (6,9); (11,17); (12,14); (13,20);
   (16,18); (19,25); (21,23); (22,28); (24,26); (27,32); (30,33); (31,34); (35,36); (2,3); (6,10);
   (9,15); (11,12); (13,16); (14,17); (18,20); (19,21); (22,24); (23,25); (26,28); (27,29); (31,32);
   (36,37); (3,4); (5,9); (8,15); (11,13); (12,18); (14,16); (17,20); (19,22); (21,26); (23,24);
   (25,28); (27,30); (29,33); (34,36); (4,7); (5,6); (8,9); (10,11); (12,14); (13,15); (16,17);
   (18,19); (20,21); (22,23); (24,26); (25,27); (28,31); (29,30); (32,33); (34,35); (6,7); (8,10);
   (9,11); (12,13); (14,15); (16,18); (17,19); (20,22); (21,23); (24,25); (26,27); (28,29); (30,31);
   (32,34); (5,6); (7,8); (9,10); (11,12); (13,14); (15,16); (17,18); (19,20); (21,22); (23,24);
   (25,26); (27,28); (29,30); (31,32); (33,34)].

(** detail/sorting_network/sort40.h, operator(). *)
Definition swaps40 : list (N * N) :=
  [(0,1); (2,3); (4,5); (6,7); (8,9); (10,11); (12,13); (14,15); (16,17); (18,19); (20,21); (22,23);
   (24,25); (26,27); (28,29); (30,31); (32,33); (34,35); (36,37); (38,39); (0,2); (1,3); (4,6);
   (5,7); (8,10); (9,11); (12,14); (13,15); (16,18); (17,19); (20,22); (21,23); (24,26); (25,27);
   (28,30); (29,31); (32,34); (33,35); (36,38); (37,39); (0,4); (1,5); (2,6); (3,7); (8,12); (9,13);
   (10,14); (11,15); (16,20); (17,21); (18,22); (19,23); (24,28); (25,29); (26,30); (27,31);
   (32,36); (33,37); (34,38); (35,39); (0,8); (1,9); (2,10); (3,11); (4,12); (5,13); (6,14); (7,15);
   (17,20); (19,22); (24,32); (25,33); (26,34); (27,35); (28,36); (29,37); (30,38); (31,39); (0,24);
   (1,25); (2,26); (3,27); (4,28); (5,29); (6,30); (7,31); (8,32); (9,33); (10,34); (11,35);
   (12,36); (13,37); (14,38); (15,39); (1,2); (3,12); (5,10); (6,9); (7,21); (8,16); (13,14);
   (18,32); (23,31); (25,26); (27,36); (29,34); (30,33); (37,38); (3,6); (4,18); (5,25); (7,29);
   (9,12); (10,32); (14,34); (15,23); (16,24); (21,35); (27,30); (33,36); (3,17); (8,16); (10,24);
   (11,21); (12,20); (15,29); (18,28); (19,27); (22,36); (23,31); (0,8); (1,3); (4,16); (6,12);
   (7,19); (10,18); (11,13); (14,22); (17,25); (20,32); (21,29); (23,35); (26,28); (27,33); (31,39);
   (36,38); (2,6); (4,8); (5,7); (9,19); (10,16); (12,24); (13,25); (14,26); (15,27); (20,30);
   (23,29); (31,35); (32,34); (33,37); (1,4); (2,16); (3,5); (6,18); (9,17); (11,15); (12,14);
   (13,19); (20,26); (21,33); (22,30); (23,37); (24,28); (25,27); (34,36); (35,38); (2,8); (3,10);
   (5,9); (6,12); (7,13); (11,17); (14,20); (15,21); (18,24); (19,25); (22,28); (26,32); (27,33);
   (29,36); (30,34); (31,37); (2,4); (6,10); (7,11); (12,16); (13,17); (14,18); (15,19); (20,24);
   (21,25); (22,26); (23,27); (28,32); (29,33); (35,37); (3,4); (5,12); (7,14); (9,16); (11,20);
   (13,18); (15,22); (17,24); (19,28); (21,26); (23,30); (25,32); (27,34); (35,36); (4,8); (5,6);
   (7,10); (9,12); (11,13); (14,16); (15,20); (17,18); (19,24); (21,22); (23,25); (26,28); (27,30);
   (29,32); (31,35); (33,34); (6,8); (7,9); (10,12); (11,14); (13,16); (15,17); (18,20); (19,21);
   (22,24); (23,26); (25,28); (27,29); (30,32); (31,33); (5,6); (7,8); (9,10); (11,12); (13,14);
   (15,16); (17,18); (19,20); (21,22); (23,24); (25,26); (27,28); (29,30); (31,32); (33,34)].
(** detail/sorting_network/sort40.h, index_pairs(). *)
Definition pairs40 : list (N * N) :=
  [(0,1); (2,3); (4,5); (6,7); (8,9); (10,11); (12,13); (14,15); (16,17); (18,19); (20,21); (22,23);
   (24,25); (26,27); (28,29); (30,31); (32,33); (34,35); (36,37); (38,39); (0,2); (1,3); (4,6);
   (5,7); (8,10); (9,11); (12,14); (13,15); (16,18); (17,19); (20,22); (21,23); (24,26); (25,27);
   (28,30); (29,31); (32,34); (33,35); (36,38); (37,39); (0,4); (1,5); (2,6); (3,7); (8,12); (9,13);
   (10,14); (11,15); (16,20); (17,21); (18,22); (19,23); (24,28); (25,29); (26,30); (27,31);
   (32,36); (33,37); (34,38); (35,39); (0,8); (1,9); (2,10); (3,11); (4,12); (5,13); (6,14); (7,15);
   (17,20); (19,22); (24,32); (25,33); (26,34); (27,35); (28,36); (29,37); (30,38); (31,39); (0,24);
   (1,25); (2,26); (3,27); (4,28); (5,29); (6,30); (7,31); (8,32); (9,33); (10,34); (11,35);
   (12,36); (13,37); (14,38); (15,39); (1,2); (3,12); (5,10); (6,9); (7,21); (8,16); (13,14);
   (18,32); (23,31); (25,26); (27,36); (29,34); (30,33); (37,38); (3,6); (4,18); (5,25); (7,29);
   (9,12); (10,32); (14,34); (15,23); (16,24); (21,35); (27,30); (33,36); (3,17); (8,16); (10,24);
   (11,21); (12,20); (15,29); (18,28); (19,27); (22,36); (23,31); (0,8); (1,3); (4,16); (6,12);
   (7,19); (10,18); (11,13); (14,22); (17,25); (20,32); (21,29); (23,35); (26,28); (27,33); (31,39);
   (36,38); (2,6); (4,8); (5,7); (9,19); (10,16); (12,24); (13,25); (14,26); (15,27); (20,30);
   (23,29); (31,35); (32,34); (33,37); (1,4); (2,16); (3,5); (6,18); (9,17); (11,15); (12,14);
   (13,19); (20,26); (21,33); (22,30); (23,37); (24,28); (25,27); (34,36); (35,38); (2,8); (3,10);
   (5,9); (6,12); (7,13); (11,17); (14,20); (15,21); (18,24); (19,25); (22,28); (26,32); (27,33);
   (29,36); (30,34); (31,37); (2,4); (6,10); (7,11); (12,16); (13,17); (14,18); (15,19); (20,24);
   (21,25); (22,26); (23,27); (28,32); (29,33); (35,37); (3,4); (5,12); (7,14); (9,16); (11,20);
   (13,18); (15,22); (17,24); (19,28); (21,26); (23,30); (25,32); (27,34); (35,36); (4,8); (5,6);
   (7,10); (9,12); (11,13); (14,16); (15,20); (17,18); (19,24); (21,22); (23,25); (26,28); (27,30);
   (29,32); (31,35); (33,34); (6,8); (7,9); (10,12); (11,14); (13,16); (15,17); (18,20); (19,21);
   (22,24); (23,26); (25,28); (27,29); (30,32); (31,33); (5,6); (7,8); (9,10); (11,12); (13,14);
   (15,16); (17,18); (19,20); (21,22); (23,24); (25,26); (27,28); (29,30); (31,32); (33,34)].

(** detail/sorting_network/sort41.h, operator(). *)
Definition swaps41 : list (N * N) :=
  [(0,1); (2,3); (4,5); (6,7); (8,9); (10,11); (12,13); (14,15); (16,17); (18,19); (20,21); (22,23);
   (24,25); (26,27); (28,29); (30,31); (32,35); (33,39); (34,37); (36,40); (0,2); (1,3); (4,6);
   (5,7); (8,10); (9,11); (12,14); (13,15); (16,18); (17,19); (20,22); (21,23); (24,26); (25,27);
   (28,30); (29,31); (32,39); (34,36); (35,40); (37,38); (0,4); (1,5); (2,6); (3,7); (8,12); (9,13);
   (10,14); (11,15); (16,20); (17,21); (18,22); (19,23); (24,28); (25,29); (26,30); (27,31);
   (32,34); (33,35); (36,37); (39,40); (0,8); (1,9); (2,10); (3,11); (4,12); (5,13); (6,14); (7,15);
   (16,24); (17,25); (18,26); (19,27); (20,28); (21,29); (22,30); (23,31); (33,36); (35,38);
   (37,39); (0,16); (1,17); (2,18); (3,19); (4,20); (5,21); (6,22); (7,23); (8,24); (9,25); (10,26);
   (11,27); (12,28); (13,29); (14,30); (15,31); (32,33); (34,36); (35,37); (38,40); (0,32); (1,2);
   (3,12); (4,8); (5,10); (6,9); (7,11); (13,14); (17,18); (19,28); (20,24); (21,26); (22,25);
   (23,27); (29,30); (31,40); (34,35); (36,37); (38,39); (5,6); (7,13); (9,10); (11,39); (15,31);
   (16,32); (18,24); (21,22); (23,29); (25,26); (33,34); (35,36); (37,38); (1,36); (2,33); (6,17);
   (10,21); (11,22); (12,37); (14,38); (15,19); (18,34); (23,25); (28,35); (30,39); (1,16); (2,4);
   (3,28); (6,18); (8,33); (14,34); (15,36); (19,29); (26,37); (27,38); (30,35); (1,2); (3,20);
   (7,14); (8,16); (9,28); (11,34); (12,33); (15,32); (17,26); (19,27); (22,30); (25,36); (31,38);
   (3,4); (5,15); (7,18); (10,32); (11,20); (12,17); (13,25); (21,33); (24,34); (27,36); (31,35);
   (38,39); (4,16); (5,6); (9,11); (10,15); (14,24); (20,28); (23,32); (25,34); (29,35); (5,8);
   (7,10); (9,12); (11,17); (13,23); (15,21); (18,20); (19,32); (22,28); (24,25); (27,34); (29,37);
   (35,38); (2,5); (3,8); (7,9); (12,16); (13,14); (15,18); (19,26); (20,21); (22,24); (23,33);
   (25,28); (29,30); (31,32); (35,37); (3,5); (4,9); (6,12); (10,16); (11,13); (14,17); (19,23);
   (26,33); (27,29); (30,34); (32,36); (4,7); (6,8); (10,12); (11,15); (13,20); (14,18); (17,21);
   (19,22); (23,25); (24,26); (27,31); (28,33); (29,32); (35,36); (4,6); (7,8); (9,11); (13,15);
   (14,16); (17,19); (18,20); (21,23); (22,24); (25,26); (27,28); (29,33); (30,31); (32,34); (4,5);
   (6,7); (9,10); (11,12); (13,14); (15,16); (17,18); (19,20); (21,22); (23,24); (25,27); (26,28);
   (29,30); (31,33); (34,35); (8,9); (10,11); (12,13); (14,15); (16,17); (18,19); (20,21); (22,23);
   (24,25); (26,27); (28,29); (30,31); (32,33)].
(** detail/sorting_network/sort41.h, index_pairs(). *)
Definition pairs41 : list (N * N) :=
  [(0,1); (2,3); (4,5); (6,7); (8,9); (10,11); (12,13); (14,15); (16,17); (18,19); (20,21); (22,23);
   (24,25); (26,27); (28,29); (30,31); (32,35); (33,39); (34,37); (36,40); (0,2); (1,3); (4,6);
   (5,7); (8,10); (9,11); (12,14); (13,15); (16,18); (17,19); (20,22); (21,23); (24,26); (25,27);
   (28,30); (29,31); (32,39); (34,36); (35,40); (37,38); (0,4); (1,5); (2,6); (3,7); (8,12); (9,13);
   (10,14); (11,15); (16,20); (17,21); (18,22); (19,23); (24,28); (25,29); (26,30); (27,31);
   (32,34); (33,35); (36,37); (39,40); (0,8); (1,9); (2,10); (3,11); (4,12); (5,13); (6,14); (7,15);
   (16,24); (17,25); (18,26); (19,27); (20,28); (21,29); (22,30); (23,31); (33,36); (35,38);
   (37,39); (0,16); (1,17); (2,18); (3,19); (4,20); (5,21); (6,22); (7,23); (8,24); (9,25); (10,26);
   (11,27); (12,28); (13,29); (14,30); (15,31); (32,33); (34,36); (35,37); (38,40); (0,32); (1,2);
   (3,12); (4,8); (5,10); (6,9); (7,11); (13,14); (17,18); (19,28); (20,24); (21,26); (22,25);
   (23,27); (29,30); (31,40); (34,35); (36,37); (38,39); (5,6); (7,13); (9,10); (11,39); (15,31);
   (16,32); (18,24); (21,22); (23,29); (25,26); (33,34); (35,36); (37,38); (1,36); (2,33); (6,17);
   (10,21); (11,22); (12,37); (14,38); (15,19); (18,34); (23,25); (28,35); (30,39); (1,16); (2,4);
   (3,28); (6,18); (8,33); (14,34); (15,36); (19,29); (26,37); (27,38); (30,35); (1,2); (3,20);
   (7,14); (8,16); (9,28); (11,34); (12,33); (15,32); (17,26); (19,27); (22,30); (25,36); (31,38);
   (3,4); (5,15); (7,18); (10,32); (11,20); (12,17); (13,25); (21,33); (24,34); (27,36); (31,35);
   (38,39); (4,16); (5,6); (9,11); (10,15); (14,24); (20,28); (23,32); (25,34); (29,35); (5,8);
   (7,10); (9,12); (11,17); (13,23); (15,21); (18,20); (19,32); (22,28); (24,25); (27,34); (29,37);
   (35,38); (2,5); (3,8); (7,9); (12,16); (13,14); (15,18); (19,26); (20,21); (22,24); (23,33);
   (25,28); (29,30); (31,32); (35,37); (3,5); (4,9); (6,12); (10,16); (11,13); (14,17); (19,23);
   (26,33); (27,29); (30,34); (32,36); (4,7); (6,8); (10,12); (11,15); (13,20); (14,18); (17,21);
   (19,22); (23,25); (24,26); (27,31); (28,33); (29,32); (35,36); (4,6); (7,8); (9,11); (13,15);
   (14,16); (17,19); (18,20); (21,23); (22,24); (25,26); (27,28); (29,33); (30,31); (32,34); (4,5);
   (6,7); (9,10); (11,12); (13,14); (15,16); (17,18); (19,20); (21,22); (23,24); (25,27); (26,28);
   (29,30); (31,33); (34,35); (8,9); (10,11); (12,13); (14,15); (16,17); (18,19); (20,21); (22,23);
   (24,25); (26,27); (28,29); (30,31); (32,33)].

(** detail/sorting_network/sort42.h, operator(). *)
Definition swaps42 : list (N * N) :=
  [(0,1); (2,3); (4,5); (6,7); (8,9); (10,11); (12,13); (14,15); (16,17); (18,19); (20,21); (22,23);
   (24,25); (26,27); (28,29); (30,31); (32,33); (34,35); (36,37); (38,39); (40,41); (0,2); (1,3);
   (4,6); (5,7); (8,10); (9,11); (12,14); (13,15); (16,24); (17,25); (18,22); (19,23); (26,28);
   (27,29); (30,32); (31,33); (34,36); (35,37); (38,40); (39,41); (0,4); (1,5); (2,6); (3,7);
   (8,12); (9,13); (10,14); (11,15); (16,18); (17,20); (19,22); (21,24); (23,25); (26,30); (27,31);
   (28,32); (29,33); (34,38); (35,39); (36,40); (37,41); (0,8); (1,9); (2,10); (3,11); (4,12);
   (5,13); (6,14); (7,15); (17,18); (19,21); (20,22); (23,24); (26,34); (27,35); (28,36); (29,37);
   (30,38); (31,39); (32,40); (33,41); (0,26); (1,27); (2,28); (3,29); (4,30); (5,31); (6,32);
   (7,33); (8,34); (9,35); (10,36); (11,37); (12,38); (13,39); (14,40); (15,41); (16,17); (18,20);
   (21,23); (24,25); (0,16); (1,2); (3,12); (4,8); (5,10); (6,9); (7,11); (13,14); (17,19); (20,21);
   (22,24); (25,41); (27,28); (29,38); (30,34); (31,36); (32,35); (33,37); (39,40); (4,16); (5,6);
   (7,13); (9,10); (14,21); (15,24); (17,26); (18,19); (20,27); (22,23); (25,37); (28,34); (31,32);
   (35,36); (1,17); (2,16); (3,20); (5,26); (8,19); (11,23); (12,27); (14,29); (15,36); (18,30);
   (21,38); (22,33); (24,40); (25,39); (1,4); (3,5); (6,18); (7,26); (8,17); (9,30); (10,19);
   (11,32); (14,20); (15,34); (16,25); (21,27); (22,31); (23,35); (24,33); (36,38); (37,40); (2,6);
   (9,14); (11,28); (12,18); (13,30); (16,17); (19,21); (20,22); (23,29); (24,25); (27,32); (35,39);
   (2,8); (5,9); (6,16); (7,20); (10,17); (11,12); (13,22); (15,18); (19,28); (21,34); (23,26);
   (24,31); (25,35); (29,30); (32,36); (33,39); (4,8); (7,11); (10,12); (13,14); (17,18); (23,24);
   (27,28); (29,31); (30,34); (33,37); (2,4); (6,8); (9,10); (11,16); (12,20); (15,17); (18,22);
   (19,23); (21,29); (24,26); (25,30); (31,32); (33,35); (37,39); (3,6); (5,8); (7,9); (10,16);
   (12,19); (13,15); (14,17); (18,21); (20,23); (22,29); (24,27); (25,31); (26,28); (32,34);
   (33,36); (35,38); (3,4); (6,7); (8,11); (12,13); (14,19); (15,20); (17,23); (18,24); (21,26);
   (22,27); (28,29); (30,33); (34,35); (37,38); (5,6); (7,8); (9,11); (10,12); (13,15); (14,16);
   (17,18); (19,20); (21,22); (23,24); (25,27); (26,28); (29,31); (30,32); (33,34); (35,36); (6,7);
   (9,10); (11,12); (13,14); (15,16); (17,19); (18,20); (21,23); (22,24); (25,26); (27,28); (29,30);
   (31,32); (34,35); (8,9); (10,11); (12,13); (14,15); (16,17); (18,19); (20,21); (22,23); (24,25);
   (26,27); (28,29); (30,31); (32,33)].
(** detail/sorting_network/sort42.h, index_pairs(). *)
Definition pairs42 : list (N * N) :=
  [(0,1); (2,3); (4,5); (6,7); (8,9); (10,11); (12,13); (14,15); (16,17); (18,19); (20,21); (22,23);
   (24,25); (26,27); (28,29); (30,31); (32,33); (34,35); (36,37); (38,39); (40,41); (0,2); (1,3);
   (4,6); (5,7); (8,10); (9,11); (12,14); (13,15); (16,24); (17,25); (18,22); (19,23); (26,28);
   (27,29); (30,32); (31,33); (34,36); (35,37); (38,40); (39,41); (0,4); (1,5); (2,6); (3,7);
   (8,12); (9,13); (10,14); (11,15); (16,18); (17,20); (19,22); (21,24); (23,25); (26,30); (27,31);
   (28,32); (29,33); (34,38); (35,39); (36,40); (37,41); (0,8); (1,9); (2,10); (3,11); (4,12);
   (5,13); (6,14); (7,15); (17,18); (19,21); (20,22); (23,24); (26,34); (27,35); (28,36); (29,37);
   (30,38); (31,39); (32,40); (33,41); (0,26); (1,27); (2,28); (3,29); (4,30); (5,31); (6,32);
   (7,33); (8,34); (9,35); (10,36); (11,37); (12,38); (13,39); (14,40); (15,41); (16,17); (18,20);
   (21,23); (24,25); (0,16); (1,2); (3,12); (4,8); (5,10); (6,9); (7,11); (13,14); (17,19); (20,21);
   (22,24); (25,41); (27,28); (29,38); (30,34); (31,36); (32,35); (33,37); (39,40); (4,16); (5,6);
   (7,13); (9,10); (14,21); (15,24); (17,26); (18,19); (20,27); (22,23); (25,37); (28,34); (31,32);
   (35,36); (1,17); (2,16); (3,20); (5,26); (8,19); (11,23); (12,27); (14,29); (15,36); (18,30);
   (21,38); (22,33); (24,40); (25,39); (1,4); (3,5); (6,18); (7,26); (8,17); (9,30); (10,19);
   (11,32); (14,20); (15,34); (16,25); (21,27); (22,31); (23,35); (24,33); (36,38); (37,40); (2,6);
   (9,14); (11,28); (12,18); (13,30); (16,17); (19,21); (20,22); (23,29); (24,25); (27,32); (35,39);
   (2,8); (5,9); (6,16); (7,20); (10,17); (11,12); (13,22); (15,18); (19,28); (21,34); (23,26);
   (24,31); (25,35); (29,30); (32,36); (33,39); (4,8); (7,11); (10,12); (13,14); (17,18); (23,24);
   (27,28); (29,31); (30,34); (33,37); (2,4); (6,8); (9,10); (11,16); (12,20); (15,17); (18,22);
   (19,23); (21,29); (24,26); (25,30); (31,32); (33,35); (37,39); (3,6); (5,8); (7,9); (10,16);
   (12,19); (13,15); (14,17); (18,21); (20,23); (22,29); (24,27); (25,31); (26,28); (32,34);
   (33,36); (35,38); (3,4); (6,7); (8,11); (12,13); (14,19); (15,20); (17,23); (18,24); (21,26);
   (22,27); (28,29); (30,33); (34,35); (37,38); (5,6); (7,8); (9,11); (10,12); (13,15); (14,16);
   (17,18); (19,20); (21,22); (23,24); (25,27); (26,28); (29,31); (30,32); (33,34); (35,36); (6,7);
   (9,10); (11,12); (13,14); (15,16); (17,19); (18,20); (21,23); (22,24); (25,26); (27,28); (29,30);
   (31,32); (34,35); (8,9); (10,11); (12,13); (14,15); (16,17); (18,19); (20,21); (22,23); (24,25);
   (26,27); (28,29); (30,31); (32,33)].

(** detail/sorting_network/sort43.h, operator(). *)
Definition swaps43 : list (N * N) :=
  [(1,2); (3,6); (4,5); (7,14); (8,9); (10,11); (12,13); (15,42); (16,17); (18,19); (20,21); (22,23);
   (24,25); (26,27); (28,29); (30,31); (32,33); (34,35); (36,37); (38,39); (40,41); (0,1); (3,4);
   (5,6); (7,12); (8,10); (9,11); (13,14); (15,40); (16,18); (17,19); (20,22); (21,23); (24,26);
   (25,27); (28,30); (29,31); (32,34); (33,35); (36,38); (37,39); (41,42); (0,3); (1,4); (2,5);
   (7,8); (9,13); (10,12); (11,14); (15,36); (16,24); (17,25); (18,26); (19,27); (28,32); (29,33);
   (30,34); (31,35); (37,41); (38,40); (39,42); (0,7); (1,10); (2,9); (3,8); (4,12); (5,13); (6,11);
   (15,28); (16,20); (17,21); (18,24); (19,25); (22,26); (23,27); (29,37); (30,38); (31,39);
   (32,36); (33,41); (34,40); (35,42); (0,15); (1,30); (2,29); (3,32); (4,34); (5,33); (6,31);
   (7,28); (8,36); (9,37); (10,38); (11,39); (12,40); (13,41); (14,35); (17,20); (18,22); (21,25);
   (23,26); (27,42); (0,16); (1,2); (3,7); (4,9); (5,10); (6,8); (11,14); (12,13); (17,18); (19,23);
   (20,24); (25,26); (28,32); (29,30); (31,36); (33,38); (34,37); (35,39); (40,41); (4,5); (9,10);
   (12,14); (15,16); (18,20); (19,22); (21,24); (23,25); (27,40); (28,30); (33,34); (37,38); (2,16);
   (7,20); (8,24); (11,21); (13,25); (14,26); (17,28); (18,29); (19,31); (22,32); (23,35); (1,17);
   (2,7); (3,18); (5,22); (6,19); (8,16); (12,23); (13,28); (14,29); (20,30); (21,37); (24,36);
   (25,39); (26,41); (27,31); (35,40); (3,15); (5,18); (6,17); (7,8); (9,13); (10,16); (11,19);
   (14,20); (23,28); (24,32); (25,37); (26,36); (27,33); (29,34); (31,35); (39,42); (1,3); (2,15);
   (4,11); (5,7); (8,18); (9,17); (10,22); (12,27); (13,19); (16,30); (21,33); (24,29); (25,31);
   (26,34); (32,38); (35,37); (39,40); (41,42); (2,3); (6,15); (7,8); (10,14); (11,12); (13,27);
   (16,29); (20,22); (21,23); (28,33); (30,32); (31,35); (36,39); (40,41); (4,6); (5,15); (8,10);
   (12,21); (13,17); (14,18); (16,24); (19,27); (22,30); (25,28); (26,29); (31,33); (36,37);
   (38,39); (3,4); (6,9); (7,15); (11,13); (12,17); (16,20); (19,21); (22,24); (23,27); (26,30);
   (29,32); (34,38); (35,36); (39,40); (4,5); (6,8); (9,15); (14,16); (17,19); (18,20); (23,25);
   (24,26); (27,28); (33,38); (34,35); (37,39); (6,7); (10,15); (11,14); (12,16); (13,18); (20,22);
   (21,23); (25,29); (27,30); (28,32); (31,34); (36,38); (5,6); (8,11); (12,15); (13,14); (16,18);
   (17,20); (19,22); (21,24); (23,26); (25,27); (28,29); (30,31); (32,33); (37,38); (8,9); (10,11);
   (12,13); (14,15); (16,17); (18,19); (20,21); (22,23); (24,25); (26,27); (28,30); (29,31);
   (32,34); (33,35); (7,8); (9,10); (11,12); (13,14); (15,16); (17,18); (19,20); (21,22); (23,24);
   (25,26); (27,28); (29,30); (31,32); (33,34); (35,36)].
(** detail/sorting_network/sort43.h, index_pairs(). *)
Definition pairs43 : list (N * N) :=
  [(1,2); (3,6); (4,5); (7,14); (8,9); (10,11); (12,13); (15,42); (16,17); (18,19); (20,21); (22,23);
   (24,25); (26,27); (28,29); (30,31); (32,33); (34,35); (36,37); (38,39); (40,41); (0,1); (3,4);
   (5,6); (7,12); (8,10); (9,11); (13,14); (15,40); (16,18); (17,19); (20,22); (21,23); (24,26);
   (25,27); (28,30); (29,31); (32,34); (33,35); (36,38); (37,39); (41,42); (0,3); (1,4); (2,5);
   (7,8); (9,13); (10,12); (11,14); (15,36); (16,24); (17,25); (18,26); (19,27); (28,32); (29,33);
   (30,34); (31,35); (37,41); (38,40); (39,42); (0,7); (1,10); (2,9); (3,8); (4,12); (5,13); (6,11);
   (15,28); (16,20); (17,21); (18,24); (19,25); (22,26); (23,27); (29,37); (30,38); (31,39);
   (32,36); (33,41); (34,40); (35,42); (0,15); (1,30); (2,29); (3,32); (4,34); (5,33); (6,31);
   (7,28); (8,36); (9,37); (10,38); (11,39); (12,40); (13,41); (14,35); (17,20); (18,22); (21,25);
   (23,26); (27,42); (0,16); (1,2); (3,7); (4,9); (5,10); (6,8); (11,14); (12,13); (17,18); (19,23);
   (20,24); (25,26); (28,32); (29,30); (31,36); (33,38); (34,37); (35,39); (40,41); (4,5); (9,10);
   (12,14); (15,16); (18,20); (19,22); (21,24); (23,25); (27,40); (28,30); (33,34); (37,38); (2,16);
   (7,20); (8,24); (11,21); (13,25); (14,26); (17,28); (18,29); (19,31); (22,32); (23,35); (1,17);
   (2,7); (3,18); (5,22); (6,19); (8,16); (12,23); (13,28); (14,29); (20,30); (21,37); (24,36);
   (25,39); (26,41); (27,31); (35,40); (3,15); (5,18); (6,17); (7,8); (9,13); (10,16); (11,19);
   (14,20); (23,28); (24,32); (25,37); (26,36); (27,33); (29,34); (31,35); (39,42); (1,3); (2,15);
   (4,11); (5,7); (8,18); (9,17); (10,22); (12,27); (13,19); (16,30); (21,33); (24,29); (25,31);
   (26,34); (32,38); (35,37); (39,40); (41,42); (2,3); (6,15); (7,8); (10,14); (11,12); (13,27);
   (16,29); (20,22); (21,23); (28,33); (30,32); (31,35); (36,39); (40,41); (4,6); (5,15); (8,10);
   (12,21); (13,17); (14,18); (16,24); (19,27); (22,30); (25,28); (26,29); (31,33); (36,37);
   (38,39); (3,4); (6,9); (7,15); (11,13); (12,17); (16,20); (19,21); (22,24); (23,27); (26,30);
   (29,32); (34,38); (35,36); (39,40); (4,5); (6,8); (9,15); (14,16); (17,19); (18,20); (23,25);
   (24,26); (27,28); (33,38); (34,35); (37,39); (6,7); (10,15); (11,14); (12,16); (13,18); (20,22);
   (21,23); (25,29); (27,30); (28,32); (31,34); (36,38); (5,6); (8,11); (12,15); (13,14); (16,18);
   (17,20); (19,22); (21,24); (23,26); (25,27); (28,29); (30,31); (32,33); (37,38); (8,9); (10,11);
   (12,13); (14,15); (16,17); (18,19); (20,21); (22,23); (24,25); (26,27); (28,30); (29,31);
   (32,34); (33,35); (7,8); (9,10); (11,12); (13,14); (15,16); (17,18); (19,20); (21,22); (23,24);
   (25,26); (27,28); (29,30); (31,32); (33,34); (35,36)].

(** detail/sorting_network/sort44.h, operator(). *)
Definition swaps44 : list (N * N) :=
  [(0,1); (2,3); (4,5); (6,7); (8,9); (10,11); (12,13); (14,15); (16,17); (18,19); (20,21); (22,23);
   (24,25); (26,27); (28,29); (30,31); (32,33); (34,35); (36,37); (38,39); (40,41); (42,43); (0,2);
   (1,3); (4,6); (5,7); (8,10); (9,11); (12,14); (13,15); (16,18); (17,19); (20,22); (21,23);
   (24,26); (25,27); (28,30); (29,31); (32,34); (33,35); (36,38); (37,39); (40,42); (41,43); (0,4);
   (1,5); (2,6); (3,7); (8,12); (9,13); (10,14); (11,15); (16,24); (17,25); (18,26); (19,27);
   (28,32); (29,33); (30,34); (31,35); (36,40); (37,41); (38,42); (39,43); (0,8); (1,9); (2,10);
   (3,11); (4,12); (5,13); (6,14); (7,15); (16,20); (17,21); (18,24); (19,25); (22,26); (23,27);
   (28,36); (29,37); (30,38); (31,39); (32,40); (33,41); (34,42); (35,43); (0,28); (1,29); (2,30);
   (3,31); (4,32); (5,33); (6,34); (7,35); (8,36); (9,37); (10,38); (11,39); (12,40); (13,41);
   (14,42); (15,43); (17,20); (18,22); (21,25); (23,26); (0,16); (1,2); (3,12); (4,8); (5,10);
   (6,9); (7,11); (13,14); (17,18); (19,23); (20,24); (25,26); (27,43); (29,30); (31,40); (32,36);
   (33,38); (34,37); (35,39); (41,42); (5,6); (9,10); (11,13); (15,27); (16,28); (18,20); (19,22);
   (21,24); (23,25); (30,32); (33,34); (37,38); (2,28); (7,21); (8,20); (12,24); (13,26); (14,25);
   (15,41); (17,30); (18,29); (19,31); (22,36); (23,35); (1,17); (2,8); (3,19); (4,18); (6,22);
   (11,23); (12,28); (13,29); (14,30); (15,31); (20,32); (21,37); (24,40); (25,39); (26,42);
   (35,41); (3,17); (4,16); (6,18); (7,19); (8,12); (9,14); (10,28); (13,20); (15,33); (23,30);
   (24,36); (25,37); (26,40); (27,39); (29,34); (31,35); (1,4); (2,16); (5,7); (6,8); (9,17);
   (10,22); (11,15); (12,18); (14,19); (21,33); (24,29); (25,31); (26,34); (27,41); (28,32);
   (35,37); (36,38); (39,42); (2,4); (3,16); (7,11); (8,12); (10,13); (14,15); (20,22); (21,23);
   (27,40); (28,29); (30,33); (31,35); (32,36); (39,41); (3,5); (6,16); (10,12); (11,21); (13,18);
   (14,17); (15,19); (22,32); (24,28); (25,30); (26,29); (27,37); (31,33); (38,40); (3,4); (5,9);
   (7,14); (8,16); (11,17); (15,21); (19,23); (20,24); (22,28); (26,32); (27,35); (29,36); (34,38);
   (39,40); (4,6); (5,10); (9,16); (13,20); (15,17); (18,24); (19,25); (23,30); (26,28); (27,34);
   (33,38); (37,39); (5,8); (7,13); (11,20); (12,16); (14,18); (19,21); (22,24); (23,32); (25,29);
   (27,31); (30,36); (35,38); (5,6); (7,10); (11,16); (13,14); (15,22); (17,24); (18,20); (19,26);
   (21,28); (23,25); (27,32); (29,30); (33,36); (37,38); (7,9); (10,12); (11,13); (14,16); (15,18);
   (17,20); (19,22); (21,24); (23,26); (25,28); (27,29); (30,32); (31,33); (34,36); (7,8); (9,10);
   (11,12); (13,14); (15,16); (17,18); (19,20); (21,22); (23,24); (25,26); (27,28); (29,30);
   (31,32); (33,34); (35,36)].
(** detail/sorting_network/sort44.h, index_pairs(). *)
Definition pairs44 : list (N * N) :=
  [(0,1); (2,3); (4,5); (6,7); (8,9); (10,11); (12,13); (14,15); (16,17); (18,19); (20,21); (22,23);
   (24,25); (26,27); (28,29); (30,31); (32,33); (34,35); (36,37); (38,39); (40,41); (42,43); (0,2);
   (1,3); (4,6); (5,7); (8,10); (9,11); (12,14); (13,15); (16,18); (17,19); (20,22); (21,23);
   (24,26); (25,27); (28,30); (29,31); (32,34); (33,35); (36,38); (37,39); (40,42); (41,43); (0,4);
   (1,5); (2,6); (3,7); (8,12); (9,13); (10,14); (11,15); (16,24); (17,25); (18,26); (19,27);
   (28,32); (29,33); (30,34); (31,35); (36,40); (37,41); (38,42); (39,43); (0,8); (1,9); (2,10);
   (3,11); (4,12); (5,13); (6,14); (7,15); (16,20); (17,21); (18,24); (19,25); (22,26); (23,27);
   (28,36); (29,37); (30,38); (31,39); (32,40); (33,41); (34,42); (35,43); (0,28); (1,29); (2,30);
   (3,31); (4,32); (5,33); (6,34); (7,35); (8,36); (9,37); (10,38); (11,39); (12,40); (13,41);
   (14,42); (15,43); (17,20); (18,22); (21,25); (23,26); (0,16); (1,2); (3,12); (4,8); (5,10);
   (6,9); (7,11); (13,14); (17,18); (19,23); (20,24); (25,26); (27,43); (29,30); (31,40); (32,36);
   (33,38); (34,37); (35,39); (41,42); (5,6); (9,10); (11,13); (15,27); (16,28); (18,20); (19,22);
   (21,24); (23,25); (30,32); (33,34); (37,38); (2,28); (7,21); (8,20); (12,24); (13,26); (14,25);
   (15,41); (17,30); (18,29); (19,31); (22,36); (23,35); (1,17); (2,8); (3,19); (4,18); (6,22);
   (11,23); (12,28); (13,29); (14,30); (15,31); (20,32); (21,37); (24,40); (25,39); (26,42);
   (35,41); (3,17); (4,16); (6,18); (7,19); (8,12); (9,14); (10,28); (13,20); (15,33); (23,30);
   (24,36); (25,37); (26,40); (27,39); (29,34); (31,35); (1,4); (2,16); (5,7); (6,8); (9,17);
   (10,22); (11,15); (12,18); (14,19); (21,33); (24,29); (25,31); (26,34); (27,41); (28,32);
   (35,37); (36,38); (39,42); (2,4); (3,16); (7,11); (8,12); (10,13); (14,15); (20,22); (21,23);
   (27,40); (28,29); (30,33); (31,35); (32,36); (39,41); (3,5); (6,16); (10,12); (11,21); (13,18);
   (14,17); (15,19); (22,32); (24,28); (25,30); (26,29); (27,37); (31,33); (38,40); (3,4); (5,9);
   (7,14); (8,16); (11,17); (15,21); (19,23); (20,24); (22,28); (26,32); (27,35); (29,36); (34,38);
   (39,40); (4,6); (5,10); (9,16); (13,20); (15,17); (18,24); (19,25); (23,30); (26,28); (27,34);
   (33,38); (37,39); (5,8); (7,13); (11,20); (12,16); (14,18); (19,21); (22,24); (23,32); (25,29);
   (27,31); (30,36); (35,38); (5,6); (7,10); (11,16); (13,14); (15,22); (17,24); (18,20); (19,26);
   (21,28); (23,25); (27,32); (29,30); (33,36); (37,38); (7,9); (10,12); (11,13); (14,16); (15,18);
   (17,20); (19,22); (21,24); (23,26); (25,28); (27,29); (30,32); (31,33); (34,36); (7,8); (9,10);
   (11,12); (13,14); (15,16); (17,18); (19,20); (21,22); (23,24); (25,26); (27,28); (29,30);
   (31,32); (33,34); (35,36)].

(** detail/sorting_network/sort45.h, operator(). *)
Definition swaps45 : list (N * N) :=
  [(3,12); (4,8); (5,6); (7,11); (9,10); (13,32); (14,35); (15,18); (16,29); (17,28); (19,30); (20,24);
   (21,22); (23,27); (25,26); (31,34); (33,44); (36,40); (37,38); (39,43); (41,42); (0,5); (1,7);
   (2,9); (3,4); (8,12); (10,11); (13,37); (14,36); (15,25); (16,21); (17,23); (18,26); (19,20);
   (22,29); (24,30); (27,28); (31,41); (32,38); (33,39); (34,42); (35,40); (43,44); (0,1); (2,3);
   (4,5); (6,8); (7,9); (13,33); (14,31); (15,19); (16,17); (18,27); (20,21); (22,24); (23,25);
   (26,30); (28,29); (32,35); (34,43); (36,37); (38,44); (39,41); (40,42); (0,2); (1,3); (4,10);
   (5,11); (6,7); (8,9); (13,14); (15,16); (17,19); (18,20); (21,27); (22,23); (24,25); (26,28);
   (29,30); (31,33); (32,39); (34,36); (35,41); (37,43); (38,40); (42,44); (1,2); (3,12); (4,6);
   (5,7); (8,10); (9,11); (13,15); (14,31); (16,17); (18,22); (19,26); (20,24); (21,23); (25,27);
   (28,29); (30,44); (32,34); (33,38); (35,36); (37,39); (40,42); (41,43); (0,13); (1,4); (2,6);
   (3,19); (5,8); (7,10); (14,32); (16,18); (17,22); (20,21); (23,24); (25,28); (26,38); (27,29);
   (31,34); (35,37); (36,39); (40,41); (42,43); (1,14); (2,31); (3,33); (5,35); (8,21); (9,25);
   (10,39); (11,27); (12,38); (13,15); (18,32); (22,34); (23,36); (28,41); (29,43); (1,16); (4,18);
   (5,20); (6,22); (7,36); (8,37); (12,26); (17,31); (19,33); (24,39); (25,40); (27,42); (2,17);
   (4,13); (5,15); (7,23); (8,19); (9,25); (10,24); (11,27); (14,16); (18,32); (20,35); (21,37);
   (22,34); (26,36); (30,39); (40,43); (42,44); (1,4); (2,5); (3,13); (6,14); (7,31); (9,16);
   (12,15); (19,21); (23,26); (28,37); (29,34); (30,33); (38,42); (2,4); (3,6); (7,18); (9,14);
   (11,31); (12,17); (13,20); (15,22); (16,23); (21,29); (24,38); (25,30); (27,37); (28,32);
   (33,41); (34,40); (42,43); (3,4); (5,6); (7,13); (9,12); (10,22); (11,20); (15,28); (16,21);
   (23,29); (24,32); (25,35); (30,31); (37,38); (39,42); (40,41); (43,44); (4,5); (6,7); (8,15);
   (10,25); (11,16); (13,14); (19,28); (20,21); (22,35); (23,24); (26,30); (29,32); (31,36);
   (34,37); (38,39); (42,43); (7,12); (8,13); (10,17); (14,18); (15,19); (20,23); (21,24); (22,26);
   (25,28); (27,34); (30,31); (33,35); (36,37); (38,40); (8,9); (10,15); (11,14); (12,13); (16,18);
   (17,19); (22,25); (26,28); (27,29); (30,33); (31,35); (32,34); (36,38); (37,41); (6,8); (10,11);
   (14,15); (16,17); (18,19); (20,22); (21,26); (23,25); (24,28); (27,30); (29,33); (31,32);
   (34,35); (39,41); (5,6); (9,10); (11,14); (13,16); (15,17); (18,20); (19,22); (21,23); (24,27);
   (25,26); (28,30); (29,31); (32,34); (33,36); (35,37); (41,42); (7,9); (10,12); (11,13); (14,16);
   (15,18); (17,20); (19,21); (22,23); (24,25); (26,27); (28,29); (30,31); (32,33); (34,36);
   (35,38); (37,40); (7,8); (9,10); (11,12); (13,14); (15,16); (17,18); (19,20); (21,22); (23,24);
   (25,26); (27,28); (29,30); (31,32); (33,34); (35,36); (37,38); (39,40)].
(** detail/sorting_network/sort45.h, index_pairs(). *)
Definition pairs45 : list (N * N) :=
  [(3,12); (4,8); (5,6); (7,11); (9,10); (13,32); (14,35); (15,18); (16,29); (17,28); (19,30); (20,24);
   (21,22); (23,27); (25,26); (31,34); (33,44); (36,40); (37,38); (39,43); (41,42); (0,5); (1,7);
   (2,9); (3,4); (8,12); (10,11); (13,37); (14,36); (15,25); (16,21); (17,23); (18,26); (19,20);
   (22,29); (24,30); (27,28); (31,41); (32,38); (33,39); (34,42); (35,40); (43,44); (0,1); (2,3);
   (4,5); (6,8); (7,9); (13,33); (14,31); (15,19); (16,17); (18,27); (20,21); (22,24); (23,25);
   (26,30); (28,29); (32,35); (34,43); (36,37); (38,44); (39,41); (40,42); (0,2); (1,3); (4,10);
   (5,11); (6,7); (8,9); (13,14); (15,16); (17,19); (18,20); (21,27); (22,23); (24,25); (26,28);
   (29,30); (31,33); (32,39); (34,36); (35,41); (37,43); (38,40); (42,44); (1,2); (3,12); (4,6);
   (5,7); (8,10); (9,11); (13,15); (14,31); (16,17); (18,22); (19,26); (20,24); (21,23); (25,27);
   (28,29); (30,44); (32,34); (33,38); (35,36); (37,39); (40,42); (41,43); (0,13); (1,4); (2,6);
   (3,19); (5,8); (7,10); (14,32); (16,18); (17,22); (20,21); (23,24); (25,28); (26,38); (27,29);
   (31,34); (35,37); (36,39); (40,41); (42,43); (1,14); (2,31); (3,33); (5,35); (8,21); (9,25);
   (10,39); (11,27); (12,38); (13,15); (18,32); (22,34); (23,36); (28,41); (29,43); (1,16); (4,18);
   (5,20); (6,22); (7,36); (8,37); (12,26); (17,31); (19,33); (24,39); (25,40); (27,42); (2,17);
   (4,13); (5,15); (7,23); (8,19); (9,25); (10,24); (11,27); (14,16); (18,32); (20,35); (21,37);
   (22,34); (26,36); (30,39); (40,43); (42,44); (1,4); (2,5); (3,13); (6,14); (7,31); (9,16);
   (12,15); (19,21); (23,26); (28,37); (29,34); (30,33); (38,42); (2,4); (3,6); (7,18); (9,14);
   (11,31); (12,17); (13,20); (15,22); (16,23); (21,29); (24,38); (25,30); (27,37); (28,32);
   (33,41); (34,40); (42,43); (3,4); (5,6); (7,13); (9,12); (10,22); (11,20); (15,28); (16,21);
   (23,29); (24,32); (25,35); (30,31); (37,38); (39,42); (40,41); (43,44); (4,5); (6,7); (8,15);
   (10,25); (11,16); (13,14); (19,28); (20,21); (22,35); (23,24); (26,30); (29,32); (31,36);
   (34,37); (38,39); (42,43); (7,12); (8,13); (10,17); (14,18); (15,19); (20,23); (21,24); (22,26);
   (25,28); (27,34); (30,31); (33,35); (36,37); (38,40); (8,9); (10,15); (11,14); (12,13); (16,18);
   (17,19); (22,25); (26,28); (27,29); (30,33); (31,35); (32,34); (36,38); (37,41); (6,8); (10,11);
   (14,15); (16,17); (18,19); (20,22); (21,26); (23,25); (24,28); (27,30); (29,33); (31,32);
   (34,35); (39,41); (5,6); (9,10); (11,14); (13,16); (15,17); (18,20); (19,22); (21,23); (24,27);
   (25,26); (28,30); (29,31); (32,34); (33,36); (35,37); (41,42); (7,9); (10,12); (11,13); (14,16);
   (15,18); (17,20); (19,21); (22,23); (24,25); (26,27); (28,29); (30,31); (32,33); (34,36);
   (35,38); (37,40); (7,8); (9,10); (11,12); (13,14); (15,16); (17,18); (19,20); (21,22); (23,24);
   (25,26); (27,28); (29,30); (31,32); (33,34); (35,36); (37,38); (39,40)].

(** detail/sorting_network/sort46.h, operator(). *)
Definition swaps46 : list (N * N) :=
  [(2,13); (3,12); (4,8); (5,6); (7,11); (9,10); (14,35); (15,18); (16,29); (17,28); (19,30); (20,24);
   (21,22); (23,27); (25,26); (31,34); (32,45); (33,44); (36,40); (37,38); (39,43); (41,42); (0,5);
   (1,7); (2,9); (3,4); (8,12); (10,13); (14,36); (15,25); (16,21); (17,23); (18,26); (19,20);
   (22,29); (24,30); (27,28); (31,41); (32,37); (33,39); (34,42); (35,40); (38,45); (43,44); (0,1);
   (2,3); (4,5); (6,8); (7,9); (10,11); (12,13); (14,31); (15,19); (16,17); (18,27); (20,21);
   (22,24); (23,25); (26,30); (28,29); (32,33); (34,43); (35,38); (36,37); (39,41); (40,42);
   (44,45); (0,2); (1,3); (4,10); (5,11); (6,7); (8,9); (14,32); (15,16); (17,19); (18,20); (21,27);
   (22,23); (24,25); (26,28); (29,30); (31,33); (34,36); (35,39); (37,43); (38,41); (40,44);
   (42,45); (1,2); (3,12); (4,6); (5,7); (8,10); (9,11); (14,15); (16,17); (18,22); (19,26);
   (20,24); (21,23); (25,27); (28,29); (30,45); (31,32); (33,40); (34,35); (36,38); (37,39);
   (41,43); (42,44); (0,14); (1,4); (2,6); (3,19); (5,8); (7,10); (9,13); (16,18); (17,22); (20,21);
   (23,24); (25,28); (26,40); (27,29); (31,34); (32,35); (36,37); (38,39); (41,42); (43,44); (1,31);
   (2,32); (3,33); (5,36); (8,21); (9,25); (10,39); (11,27); (12,40); (13,42); (14,15); (18,34);
   (22,35); (23,38); (29,44); (1,16); (4,18); (5,20); (6,22); (7,38); (8,37); (12,26); (13,28);
   (17,32); (19,33); (24,39); (25,41); (27,43); (2,17); (4,14); (5,15); (7,23); (8,19); (9,25);
   (10,24); (11,27); (16,31); (18,34); (20,36); (21,37); (22,35); (26,38); (28,42); (30,39);
   (41,44); (43,45); (1,4); (2,5); (3,14); (6,16); (7,32); (9,31); (12,15); (13,37); (19,21);
   (23,26); (29,35); (30,33); (39,42); (40,43); (2,4); (3,6); (7,18); (9,16); (11,32); (12,17);
   (13,34); (14,20); (15,22); (21,29); (23,31); (24,40); (25,30); (27,37); (28,33); (35,41);
   (42,45); (43,44); (3,4); (5,6); (7,14); (9,12); (10,22); (11,20); (13,15); (21,23); (24,34);
   (25,36); (29,31); (30,32); (33,41); (37,40); (39,43); (42,44); (4,5); (6,7); (8,13); (10,25);
   (11,21); (14,16); (15,19); (20,23); (22,36); (24,29); (26,30); (31,34); (32,38); (35,37);
   (39,40); (42,43); (7,12); (8,14); (10,17); (13,15); (16,18); (19,25); (20,24); (22,26); (23,29);
   (27,35); (28,36); (30,32); (33,39); (37,38); (8,9); (10,13); (11,16); (12,14); (15,17); (18,21);
   (19,22); (25,26); (27,31); (28,30); (32,36); (33,37); (34,35); (38,41); (6,8); (10,11); (13,16);
   (15,18); (17,21); (19,20); (22,24); (23,25); (26,29); (27,28); (30,31); (32,34); (35,36);
   (40,41); (5,6); (9,10); (11,13); (14,15); (16,18); (17,19); (20,21); (22,23); (24,25); (26,27);
   (28,29); (30,32); (31,33); (34,35); (36,38); (41,42); (7,9); (10,12); (11,14); (13,15); (16,17);
   (18,19); (20,22); (21,23); (24,26); (25,27); (28,30); (29,32); (31,34); (33,35); (36,37);
   (38,39); (7,8); (9,10); (11,12); (13,14); (15,16); (17,18); (19,20); (21,22); (23,24); (25,26);
   (27,28); (29,30); (31,32); (33,34); (35,36); (37,38); (39,40)].
(** detail/sorting_network/sort46.h, index_pairs(). *)
Definition pairs46 : list (N * N) :=
  [(2,13); (3,12); (4,8); (5,6); (7,11); (9,10); (14,35); (15,18); (16,29); (17,28); (19,30); (20,24);
   (21,22); (23,27); (25,26); (31,34); (32,45); (33,44); (36,40); (37,38); (39,43); (41,42); (0,5);
   (1,7); (2,9); (3,4); (8,12); (10,13); (14,36); (15,25); (16,21); (17,23); (18,26); (19,20);
   (22,29); (24,30); (27,28); (31,41); (32,37); (33,39); (34,42); (35,40); (38,45); (43,44); (0,1);
   (2,3); (4,5); (6,8); (7,9); (10,11); (12,13); (14,31); (15,19); (16,17); (18,27); (20,21);
   (22,24); (23,25); (26,30); (28,29); (32,33); (34,43); (35,38); (36,37); (39,41); (40,42);
   (44,45); (0,2); (1,3); (4,10); (5,11); (6,7); (8,9); (14,32); (15,16); (17,19); (18,20); (21,27);
   (22,23); (24,25); (26,28); (29,30); (31,33); (34,36); (35,39); (37,43); (38,41); (40,44);
   (42,45); (1,2); (3,12); (4,6); (5,7); (8,10); (9,11); (14,15); (16,17); (18,22); (19,26);
   (20,24); (21,23); (25,27); (28,29); (30,45); (31,32); (33,40); (34,35); (36,38); (37,39);
   (41,43); (42,44); (0,14); (1,4); (2,6); (3,19); (5,8); (7,10); (9,13); (16,18); (17,22); (20,21);
   (23,24); (25,28); (26,40); (27,29); (31,34); (32,35); (36,37); (38,39); (41,42); (43,44); (1,31);
   (2,32); (3,33); (5,36); (8,21); (9,25); (10,39); (11,27); (12,40); (13,42); (14,15); (18,34);
   (22,35); (23,38); (29,44); (1,16); (4,18); (5,20); (6,22); (7,38); (8,37); (12,26); (13,28);
   (17,32); (19,33); (24,39); (25,41); (27,43); (2,17); (4,14); (5,15); (7,23); (8,19); (9,25);
   (10,24); (11,27); (16,31); (18,34); (20,36); (21,37); (22,35); (26,38); (28,42); (30,39);
   (41,44); (43,45); (1,4); (2,5); (3,14); (6,16); (7,32); (9,31); (12,15); (13,37); (19,21);
   (23,26); (29,35); (30,33); (39,42); (40,43); (2,4); (3,6); (7,18); (9,16); (11,32); (12,17);
   (13,34); (14,20); (15,22); (21,29); (23,31); (24,40); (25,30); (27,37); (28,33); (35,41);
   (42,45); (43,44); (3,4); (5,6); (7,14); (9,12); (10,22); (11,20); (13,15); (21,23); (24,34);
   (25,36); (29,31); (30,32); (33,41); (37,40); (39,43); (42,44); (4,5); (6,7); (8,13); (10,25);
   (11,21); (14,16); (15,19); (20,23); (22,36); (24,29); (26,30); (31,34); (32,38); (35,37);
   (39,40); (42,43); (7,12); (8,14); (10,17); (13,15); (16,18); (19,25); (20,24); (22,26); (23,29);
   (27,35); (28,36); (30,32); (33,39); (37,38); (8,9); (10,13); (11,16); (12,14); (15,17); (18,21);
   (19,22); (25,26); (27,31); (28,30); (32,36); (33,37); (34,35); (38,41); (6,8); (10,11); (13,16);
   (15,18); (17,21); (19,20); (22,24); (23,25); (26,29); (27,28); (30,31); (32,34); (35,36);
   (40,41); (5,6); (9,10); (11,13); (14,15); (16,18); (17,19); (20,21); (22,23); (24,25); (26,27);
   (28,29); (30,32); (31,33); (34,35); (36,38); (41,42); (7,9); (10,12); (11,14); (13,15); (16,17);
   (18,19); (20,22); (21,23); (24,26); (25,27); (28,30); (29,32); (31,34); (33,35); (36,37);
   (38,39); (7,8); (9,10); (11,12); (13,14); (15,16); (17,18); (19,20); (21,22); (23,24); (25,26);
   (27,28); (29,30); (31,32); (33,34); (35,36); (37,38); (39,40)].

(** detail/sorting_network/sort47.h, operator(). *)
Definition swaps47 : list (N * N) :=
  [(1,12); (2,13); (3,14); (4,8); (5,6); (7,11); (9,10); (15,18); (16,29); (17,28); (19,30); (20,24);
   (21,22); (23,27); (25,26); (31,34); (32,45); (33,44); (35,46); (36,40); (37,38); (39,43);
   (41,42); (0,5); (1,7); (2,9); (3,4); (8,14); (10,13); (11,12); (15,25); (16,21); (17,23);
   (18,26); (19,20); (22,29); (24,30); (27,28); (31,41); (32,37); (33,39); (34,42); (35,36);
   (38,45); (40,46); (43,44); (0,1); (2,3); (4,5); (6,8); (7,9); (10,11); (13,14); (15,19); (16,17);
   (18,27); (20,21); (22,24); (23,25); (26,30); (28,29); (31,35); (32,33); (34,43); (36,37);
   (38,40); (39,41); (42,46); (44,45); (0,2); (1,3); (4,10); (5,11); (6,7); (8,9); (12,13); (15,16);
   (17,19); (18,20); (21,27); (22,23); (24,25); (26,28); (29,30); (31,32); (33,35); (34,36);
   (37,43); (38,39); (40,41); (42,44); (45,46); (1,2); (3,12); (4,6); (5,7); (8,10); (9,11);
   (13,14); (15,31); (16,17); (18,22); (19,26); (20,24); (21,23); (25,27); (28,29); (30,46);
   (32,33); (34,38); (35,42); (36,40); (37,39); (41,43); (44,45); (0,15); (1,4); (2,6); (3,19);
   (5,8); (7,10); (9,13); (11,14); (16,18); (17,22); (20,21); (23,24); (25,28); (26,42); (27,29);
   (32,34); (33,38); (36,37); (39,40); (41,44); (43,45); (1,32); (2,33); (3,35); (5,36); (8,21);
   (9,25); (10,40); (11,27); (12,42); (13,44); (14,45); (15,31); (18,34); (22,38); (23,39); (1,16);
   (4,18); (5,20); (6,22); (7,39); (8,37); (12,26); (13,28); (17,33); (19,35); (24,40); (25,41);
   (27,43); (29,45); (2,17); (4,15); (5,31); (7,23); (8,19); (9,25); (10,24); (11,27); (14,29);
   (16,32); (18,34); (20,36); (21,37); (22,38); (26,39); (28,44); (30,40); (43,46); (1,4); (2,5);
   (3,15); (6,16); (7,33); (9,32); (12,31); (13,37); (14,38); (19,21); (23,26); (29,41); (30,35);
   (40,44); (42,43); (45,46); (2,4); (3,6); (7,18); (9,16); (11,33); (12,17); (13,34); (14,21);
   (15,20); (22,31); (23,32); (24,42); (25,30); (27,37); (28,35); (29,38); (41,43); (44,45); (3,4);
   (5,6); (7,15); (9,12); (10,31); (11,20); (13,22); (14,23); (21,32); (24,34); (25,36); (30,33);
   (35,38); (37,42); (40,41); (43,44); (4,5); (6,7); (8,13); (10,25); (11,14); (15,16); (19,22);
   (20,23); (21,24); (26,30); (29,37); (31,36); (32,34); (33,39); (40,42); (41,43); (7,12); (8,15);
   (10,17); (13,19); (16,18); (20,21); (22,25); (23,24); (26,31); (27,29); (28,36); (30,33);
   (35,40); (37,39); (8,9); (10,13); (11,16); (12,15); (14,18); (17,19); (22,26); (25,31); (27,32);
   (28,30); (29,34); (33,36); (35,37); (38,39); (6,8); (10,11); (13,16); (14,17); (18,19); (20,22);
   (21,26); (23,25); (24,31); (27,28); (29,33); (30,32); (34,36); (39,42); (5,6); (9,10); (11,13);
   (14,15); (16,17); (18,20); (19,22); (21,23); (24,27); (25,26); (28,31); (29,30); (32,35);
   (33,34); (36,38); (41,42); (7,9); (10,12); (11,14); (13,15); (16,18); (17,20); (19,21); (22,23);
   (24,25); (26,27); (28,29); (30,31); (32,33); (34,35); (36,37); (38,40); (7,8); (9,10); (11,12);
   (13,14); (15,16); (17,18); (19,20); (21,22); (23,24); (25,26); (27,28); (29,30); (31,32);
   (33,34); (35,36); (37,38); (39,40)].
(** detail/sorting_network/sort47.h, index_pairs(). *)
Definition pairs47 : list (N * N) :=
  [(1,12); (2,13); (3,14); (4,8); (5,6); (7,11); (9,10); (15,18); (16,29); (17,28); (19,30); (20,24);
   (21,22); (23,27); (25,26); (31,34); (32,45); (33,44); (35,46); (36,40); (37,38); (39,43);
   (41,42); (0,5); (1,7); (2,9); (3,4); (8,14); (10,13); (11,12); (15,25); (16,21); (17,23);
   (18,26); (19,20); (22,29); (24,30); (27,28); (31,41); (32,37); (33,39); (34,42); (35,36);
   (38,45); (40,46); (43,44); (0,1); (2,3); (4,5); (6,8); (7,9); (10,11); (13,14); (15,19); (16,17);
   (18,27); (20,21); (22,24); (23,25); (26,30); (28,29); (31,35); (32,33); (34,43); (36,37);
   (38,40); (39,41); (42,46); (44,45); (0,2); (1,3); (4,10); (5,11); (6,7); (8,9); (12,13); (15,16);
   (17,19); (18,20); (21,27); (22,23); (24,25); (26,28); (29,30); (31,32); (33,35); (34,36);
   (37,43); (38,39); (40,41); (42,44); (45,46); (1,2); (3,12); (4,6); (5,7); (8,10); (9,11);
   (13,14); (15,31); (16,17); (18,22); (19,26); (20,24); (21,23); (25,27); (28,29); (30,46);
   (32,33); (34,38); (35,42); (36,40); (37,39); (41,43); (44,45); (0,15); (1,4); (2,6); (3,19);
   (5,8); (7,10); (9,13); (11,14); (16,18); (17,22); (20,21); (23,24); (25,28); (26,42); (27,29);
   (32,34); (33,38); (36,37); (39,40); (41,44); (43,45); (1,32); (2,33); (3,35); (5,36); (8,21);
   (9,25); (10,40); (11,27); (12,42); (13,44); (14,45); (15,31); (18,34); (22,38); (23,39); (1,16);
   (4,18); (5,20); (6,22); (7,39); (8,37); (12,26); (13,28); (17,33); (19,35); (24,40); (25,41);
   (27,43); (29,45); (2,17); (4,15); (5,31); (7,23); (8,19); (9,25); (10,24); (11,27); (14,29);
   (16,32); (18,34); (20,36); (21,37); (22,38); (26,39); (28,44); (30,40); (43,46); (1,4); (2,5);
   (3,15); (6,16); (7,33); (9,32); (12,31); (13,37); (14,38); (19,21); (23,26); (29,41); (30,35);
   (40,44); (42,43); (45,46); (2,4); (3,6); (7,18); (9,16); (11,33); (12,17); (13,34); (14,21);
   (15,20); (22,31); (23,32); (24,42); (25,30); (27,37); (28,35); (29,38); (41,43); (44,45); (3,4);
   (5,6); (7,15); (9,12); (10,31); (11,20); (13,22); (14,23); (21,32); (24,34); (25,36); (30,33);
   (35,38); (37,42); (40,41); (43,44); (4,5); (6,7); (8,13); (10,25); (11,14); (15,16); (19,22);
   (20,23); (21,24); (26,30); (29,37); (31,36); (32,34); (33,39); (40,42); (41,43); (7,12); (8,15);
   (10,17); (13,19); (16,18); (20,21); (22,25); (23,24); (26,31); (27,29); (28,36); (30,33);
   (35,40); (37,39); (8,9); (10,13); (11,16); (12,15); (14,18); (17,19); (22,26); (25,31); (27,32);
   (28,30); (29,34); (33,36); (35,37); (38,39); (6,8); (10,11); (13,16); (14,17); (18,19); (20,22);
   (21,26); (23,25); (24,31); (27,28); (29,33); (30,32); (34,36); (39,42); (5,6); (9,10); (11,13);
   (14,15); (16,17); (18,20); (19,22); (21,23); (24,27); (25,26); (28,31); (29,30); (32,35);
   (33,34); (36,38); (41,42); (7,9); (10,12); (11,14); (13,15); (16,18); (17,20); (19,21); (22,23);
   (24,25); (26,27); (28,29); (30,31); (32,33); (34,35); (36,37); (38,40); (7,8); (9,10); (11,12);
   (13,14); (15,16); (17,18); (19,20); (21,22); (23,24); (25,26); (27,28); (29,30); (31,32);
   (33,34); (35,36); (37,38); (39,40)].

(** detail/sorting_network/sort48.h, operator(). *)
Definition swaps48 : list (N * N) :=
  [(0,13); (1,12); (2,15); (3,14); (4,8); (5,6); (7,11); (9,10); (16,29); (17,28); (18,31); (19,30);
   (20,24); (21,22); (23,27); (25,26); (32,45); (33,44); (34,47); (35,46); (36,40); (37,38);
   (39,43); (41,42); (0,5); (1,7); (2,9); (3,4); (6,13); (8,14); (10,15); (11,12); (16,21); (17,23);
   (18,25); (19,20); (22,29); (24,30); (26,31); (27,28); (32,37); (33,39); (34,41); (35,36);
   (38,45); (40,46); (42,47); (43,44); (0,1); (2,3); (4,5); (6,8); (7,9); (10,11); (12,13); (14,15);
   (16,17); (18,19); (20,21); (22,24); (23,25); (26,27); (28,29); (30,31); (32,33); (34,35);
   (36,37); (38,40); (39,41); (42,43); (44,45); (46,47); (0,2); (1,3); (4,10); (5,11); (6,7); (8,9);
   (12,14); (13,15); (16,18); (17,19); (20,26); (21,27); (22,23); (24,25); (28,30); (29,31);
   (32,34); (33,35); (36,42); (37,43); (38,39); (40,41); (44,46); (45,47); (1,2); (3,12); (4,6);
   (5,7); (8,10); (9,11); (13,14); (15,31); (16,32); (17,18); (19,28); (20,22); (21,23); (24,26);
   (25,27); (29,30); (33,34); (35,44); (36,38); (37,39); (40,42); (41,43); (45,46); (0,16); (1,4);
   (2,6); (3,19); (5,8); (7,10); (9,13); (11,14); (17,20); (18,22); (21,24); (23,26); (25,29);
   (27,30); (28,44); (31,47); (33,36); (34,38); (37,40); (39,42); (41,45); (43,46); (1,33); (2,34);
   (3,35); (5,37); (8,24); (9,25); (10,42); (11,27); (12,44); (13,45); (14,46); (15,31); (16,32);
   (20,36); (22,38); (23,39); (1,17); (4,20); (5,21); (6,22); (7,39); (8,40); (12,28); (13,29);
   (18,34); (19,35); (25,41); (26,42); (27,43); (30,46); (2,18); (4,16); (5,32); (7,23); (8,19);
   (9,25); (10,26); (11,27); (14,30); (15,42); (17,33); (20,36); (21,37); (22,38); (24,40); (28,39);
   (29,45); (31,43); (1,4); (2,5); (3,16); (6,17); (7,34); (9,33); (12,32); (13,40); (14,38);
   (15,35); (19,24); (23,28); (30,41); (31,44); (42,45); (43,46); (2,4); (3,6); (7,20); (9,17);
   (11,34); (12,18); (13,36); (14,24); (15,25); (16,21); (22,32); (23,33); (26,31); (27,40);
   (29,35); (30,38); (41,44); (43,45); (3,4); (5,6); (7,16); (9,12); (10,32); (11,21); (13,22);
   (14,23); (15,37); (24,33); (25,34); (26,36); (31,40); (35,38); (41,42); (43,44); (4,5); (6,7);
   (8,13); (10,15); (11,14); (16,17); (19,22); (21,23); (24,26); (25,28); (30,31); (32,37); (33,36);
   (34,39); (40,41); (42,43); (7,12); (8,16); (10,18); (13,19); (15,22); (17,20); (21,24); (23,26);
   (25,32); (27,30); (28,34); (29,37); (31,39); (35,40); (8,9); (10,13); (11,17); (12,16); (14,20);
   (15,25); (18,19); (22,32); (27,33); (28,29); (30,36); (31,35); (34,37); (38,39); (6,8); (10,11);
   (13,17); (14,18); (15,21); (19,20); (22,23); (24,25); (26,32); (27,28); (29,33); (30,34);
   (36,37); (39,41); (5,6); (9,10); (11,13); (14,16); (15,19); (17,18); (20,21); (22,24); (23,25);
   (26,27); (28,32); (29,30); (31,33); (34,36); (37,38); (41,42); (7,9); (10,12); (11,14); (13,16);
   (15,17); (18,19); (20,22); (21,24); (23,26); (25,27); (28,29); (30,32); (31,34); (33,36);
   (35,37); (38,40); (7,8); (9,10); (11,12); (13,14); (15,16); (17,18); (19,20); (21,22); (23,24);
   (25,26); (27,28); (29,30); (31,32); (33,34); (35,36); (37,38); (39,40)].
(** detail/sorting_network/sort48.h, index_pairs(). *)
Definition pairs48 : list (N * N) :=
  [(0,13); (1,12); (2,15); (3,14); (4,8); (5,6); (7,11); (9,10); (16,29); (17,28); (18,31); (19,30);
   (20,24); (21,22); (23,27); (25,26); (32,45); (33,44); (34,47); (35,46); (36,40); (37,38);
   (39,43); (41,42); (0,5); (1,7); (2,9); (3,4); (6,13); (8,14); (10,15); (11,12); (16,21); (17,23);
   (18,25); (19,20); (22,29); (24,30); (26,31); (27,28); (32,37); (33,39); (34,41); (35,36);
   (38,45); (40,46); (42,47); (43,44); (0,1); (2,3); (4,5); (6,8); (7,9); (10,11); (12,13); (14,15);
   (16,17); (18,19); (20,21); (22,24); (23,25); (26,27); (28,29); (30,31); (32,33); (34,35);
   (36,37); (38,40); (39,41); (42,43); (44,45); (46,47); (0,2); (1,3); (4,10); (5,11); (6,7); (8,9);
   (12,14); (13,15); (16,18); (17,19); (20,26); (21,27); (22,23); (24,25); (28,30); (29,31);
   (32,34); (33,35); (36,42); (37,43); (38,39); (40,41); (44,46); (45,47); (1,2); (3,12); (4,6);
   (5,7); (8,10); (9,11); (13,14); (15,31); (16,32); (17,18); (19,28); (20,22); (21,23); (24,26);
   (25,27); (29,30); (33,34); (35,44); (36,38); (37,39); (40,42); (41,43); (45,46); (0,16); (1,4);
   (2,6); (3,19); (5,8); (7,10); (9,13); (11,14); (17,20); (18,22); (21,24); (23,26); (25,29);
   (27,30); (28,44); (31,47); (33,36); (34,38); (37,40); (39,42); (41,45); (43,46); (1,33); (2,34);
   (3,35); (5,37); (8,24); (9,25); (10,42); (11,27); (12,44); (13,45); (14,46); (15,31); (16,32);
   (20,36); (22,38); (23,39); (1,17); (4,20); (5,21); (6,22); (7,39); (8,40); (12,28); (13,29);
   (18,34); (19,35); (25,41); (26,42); (27,43); (30,46); (2,18); (4,16); (5,32); (7,23); (8,19);
   (9,25); (10,26); (11,27); (14,30); (15,42); (17,33); (20,36); (21,37); (22,38); (24,40); (28,39);
   (29,45); (31,43); (1,4); (2,5); (3,16); (6,17); (7,34); (9,33); (12,32); (13,40); (14,38);
   (15,35); (19,24); (23,28); (30,41); (31,44); (42,45); (43,46); (2,4); (3,6); (7,20); (9,17);
   (11,34); (12,18); (13,36); (14,24); (15,25); (16,21); (22,32); (23,33); (26,31); (27,40);
   (29,35); (30,38); (41,44); (43,45); (3,4); (5,6); (7,16); (9,12); (10,32); (11,21); (13,22);
   (14,23); (15,37); (24,33); (25,34); (26,36); (31,40); (35,38); (41,42); (43,44); (4,5); (6,7);
   (8,13); (10,15); (11,14); (16,17); (19,22); (21,23); (24,26); (25,28); (30,31); (32,37); (33,36);
   (34,39); (40,41); (42,43); (7,12); (8,16); (10,18); (13,19); (15,22); (17,20); (21,24); (23,26);
   (25,32); (27,30); (28,34); (29,37); (31,39); (35,40); (8,9); (10,13); (11,17); (12,16); (14,20);
   (15,25); (18,19); (22,32); (27,33); (28,29); (30,36); (31,35); (34,37); (38,39); (6,8); (10,11);
   (13,17); (14,18); (15,21); (19,20); (22,23); (24,25); (26,32); (27,28); (29,33); (30,34);
   (36,37); (39,41); (5,6); (9,10); (11,13); (14,16); (15,19); (17,18); (20,21); (22,24); (23,25);
   (26,27); (28,32); (29,30); (31,33); (34,36); (37,38); (41,42); (7,9); (10,12); (11,14); (13,16);
   (15,17); (18,19); (20,22); (21,24); (23,26); (25,27); (28,29); (30,32); (31,34); (33,36);
   (35,37); (38,40); (7,8); (9,10); (11,12); (13,14); (15,16); (17,18); (19,20); (21,22); (23,24);
   (25,26); (27,28); (29,30); (31,32); (33,34); (35,36); (37,38); (39,40)].

(** detail/sorting_network/sort49.h, operator(). *)
Definition swaps49 : list (N * N) :=
  [(0,8); (1,7); (2,6); (3,11); (4,10); (5,9); (12,20); (13,19); (14,18); (15,23); (16,22); (17,21);
   (24,32); (25,31); (26,30); (27,35); (28,34); (29,33); (36,48); (37,46); (38,45); (39,43);
   (41,47); (42,44); (0,1); (2,5); (3,4); (6,9); (7,8); (10,11); (12,13); (14,17); (15,16); (18,21);
   (19,20); (22,23); (24,25); (26,29); (27,28); (30,33); (31,32); (34,35); (37,42); (38,39);
   (40,47); (43,45); (44,46); (0,2); (1,6); (5,10); (9,11); (12,14); (13,18); (17,22); (21,23);
   (24,26); (25,30); (29,34); (33,35); (36,40); (37,38); (39,42); (43,44); (45,46); (47,48); (0,3);
   (1,2); (4,6); (5,7); (8,11); (9,10); (12,15); (13,14); (16,18); (17,19); (20,23); (21,22);
   (24,27); (25,26); (28,30); (29,31); (32,35); (33,34); (40,42); (41,45); (44,47); (46,48); (0,24);
   (1,4); (3,5); (6,8); (7,10); (11,23); (13,16); (15,17); (18,20); (19,22); (25,28); (27,29);
   (30,32); (31,34); (36,41); (39,44); (40,43); (42,47); (45,46); (1,3); (2,5); (6,9); (8,10);
   (13,15); (14,17); (18,21); (20,22); (25,27); (26,29); (30,33); (32,34); (36,37); (38,41);
   (42,45); (43,44); (46,47); (1,13); (2,3); (4,5); (6,7); (8,9); (10,22); (12,36); (14,15);
   (16,17); (18,19); (20,21); (26,27); (28,29); (30,31); (32,33); (35,47); (37,39); (38,40);
   (41,42); (45,46); (0,12); (2,14); (4,6); (5,7); (9,21); (11,35); (16,18); (17,19); (23,47);
   (24,36); (28,30); (29,31); (34,46); (37,38); (39,40); (41,43); (42,44); (3,4); (5,6); (7,8);
   (10,34); (12,24); (15,16); (17,18); (19,20); (22,46); (23,35); (25,37); (27,28); (29,30);
   (31,32); (38,39); (40,41); (42,43); (44,45); (1,25); (3,15); (4,28); (5,29); (6,30); (7,31);
   (8,32); (13,37); (19,43); (20,48); (22,34); (26,38); (33,45); (39,40); (41,42); (2,26); (4,40);
   (7,19); (8,20); (9,33); (13,25); (14,38); (16,28); (17,41); (18,42); (21,45); (27,39); (31,43);
   (32,48); (3,27); (5,17); (6,18); (9,37); (10,38); (14,26); (15,39); (19,31); (20,32); (21,33);
   (28,44); (29,41); (30,42); (35,43); (36,40); (5,13); (6,14); (8,28); (9,25); (10,26); (11,39);
   (15,27); (16,36); (17,29); (18,30); (20,40); (21,37); (22,38); (32,44); (33,41); (34,42);
   (43,46); (4,16); (7,15); (8,24); (9,13); (10,14); (11,27); (17,25); (18,26); (21,29); (22,30);
   (23,39); (28,36); (32,40); (33,37); (34,38); (42,48); (3,9); (4,12); (11,15); (13,17); (14,18);
   (19,27); (21,25); (22,26); (23,31); (24,28); (29,33); (30,34); (32,36); (35,39); (38,44);
   (43,48); (1,4); (3,5); (7,13); (8,12); (11,17); (15,19); (16,24); (20,28); (23,27); (30,36);
   (31,35); (34,40); (39,45); (2,8); (7,9); (12,16); (15,21); (19,25); (20,24); (23,29); (27,33);
   (28,32); (31,37); (34,36); (35,41); (39,42); (45,48); (2,4); (6,12); (10,16); (14,20); (18,24);
   (19,21); (22,28); (23,25); (26,32); (29,30); (31,33); (35,38); (37,40); (39,44); (43,45);
   (46,48); (6,8); (10,12); (11,14); (13,16); (15,20); (17,18); (22,24); (26,28); (27,32); (31,34);
   (33,36); (35,37); (38,40); (41,44); (47,48); (3,6); (5,8); (7,10); (9,12); (11,13); (14,16);
   (15,17); (18,20); (19,22); (21,24); (23,26); (25,28); (27,29); (30,32); (33,34); (35,36);
   (37,38); (39,41); (42,44); (3,4); (5,6); (7,8); (9,10); (11,12); (13,14); (15,16); (17,18);
   (19,20); (21,22); (23,24); (25,26); (27,28); (29,30); (31,32); (39,40); (43,44)].
(** detail/sorting_network/sort49.h, index_pairs(). *)
Definition pairs49 : list (N * N) :=
  [(0,8); (1,7); (2,6); (3,11); (4,10); (5,9); (12,20); (13,19); (14,18); (15,23); (16,22); (17,21);
   (24,32); (25,31); (26,30); (27,35); (28,34); (29,33); (36,48); (37,46); (38,45); (39,43);
   (41,47); (42,44); (0,1); (2,5); (3,4); (6,9); (7,8); (10,11); (12,13); (14,17); (15,16); (18,21);
   (19,20); (22,23); (24,25); (26,29); (27,28); (30,33); (31,32); (34,35); (37,42); (38,39);
   (40,47); (43,45); (44,46); (0,2); (1,6); (5,10); (9,11); (12,14); (13,18); (17,22); (21,23);
   (24,26); (25,30); (29,34); (33,35); (36,40); (37,38); (39,42); (43,44); (45,46); (47,48); (0,3);
   (1,2); (4,6); (5,7); (8,11); (9,10); (12,15); (13,14); (16,18); (17,19); (20,23); (21,22);
   (24,27); (25,26); (28,30); (29,31); (32,35); (33,34); (40,42); (41,45); (44,47); (46,48); (0,24);
   (1,4); (3,5); (6,8); (7,10); (11,23); (13,16); (15,17); (18,20); (19,22); (25,28); (27,29);
   (30,32); (31,34); (36,41); (39,44); (40,43); (42,47); (45,46); (1,3); (2,5); (6,9); (8,10);
   (13,15); (14,17); (18,21); (20,22); (25,27); (26,29); (30,33); (32,34); (36,37); (38,41);
   (42,45); (43,44); (46,47); (1,13); (2,3); (4,5); (6,7); (8,9); (10,22); (12,36); (14,15);
   (16,17); (18,19); (20,21); (26,27); (28,29); (30,31); (32,33); (35,47); (37,39); (38,40);
   (41,42); (45,46); (0,12); (2,14); (4,6); (5,7); (9,21); (11,35); (16,18); (17,19); (23,47);
   (24,36); (28,30); (29,31); (34,46); (37,38); (39,40); (41,43); (42,44); (3,4); (5,6); (7,8);
   (10,34); (12,24); (15,16); (17,18); (19,20); (22,46); (23,35); (25,37); (27,28); (29,30);
   (31,32); (38,39); (40,41); (42,43); (44,45); (1,25); (3,15); (4,28); (5,29); (6,30); (7,31);
   (8,32); (13,37); (19,43); (20,48); (22,34); (26,38); (33,45); (39,40); (41,42); (2,26); (4,40);
   (7,19); (8,20); (9,33); (13,25); (14,38); (16,28); (17,41); (18,42); (21,45); (27,39); (31,43);
   (32,48); (3,27); (5,17); (6,18); (9,37); (10,38); (14,26); (15,39); (19,31); (20,32); (21,33);
   (28,44); (29,41); (30,42); (35,43); (36,40); (5,13); (6,14); (8,28); (9,25); (10,26); (11,39);
   (15,27); (16,36); (17,29); (18,30); (20,40); (21,37); (22,38); (32,44); (33,41); (34,42);
   (43,46); (4,16); (7,15); (8,24); (9,13); (10,14); (11,27); (17,25); (18,26); (21,29); (22,30);
   (23,39); (28,36); (32,40); (33,37); (34,38); (42,48); (3,9); (4,12); (11,15); (13,17); (14,18);
   (19,27); (21,25); (22,26); (23,31); (24,28); (29,33); (30,34); (32,36); (35,39); (38,44);
   (43,48); (1,4); (3,5); (7,13); (8,12); (11,17); (15,19); (16,24); (20,28); (23,27); (30,36);
   (31,35); (34,40); (39,45); (2,8); (7,9); (12,16); (15,21); (19,25); (20,24); (23,29); (27,33);
   (28,32); (31,37); (34,36); (35,41); (39,42); (45,48); (2,4); (6,12); (10,16); (14,20); (18,24);
   (19,21); (22,28); (23,25); (26,32); (29,30); (31,33); (35,38); (37,40); (39,44); (43,45);
   (46,48); (6,8); (10,12); (11,14); (13,16); (15,20); (17,18); (22,24); (26,28); (27,32); (31,34);
   (33,36); (35,37); (38,40); (41,44); (47,48); (3,6); (5,8); (7,10); (9,12); (11,13); (14,16);
   (15,17); (18,20); (19,22); (21,24); (23,26); (25,28); (27,29); (30,32); (33,34); (35,36);
   (37,38); (39,41); (42,44); (3,4); (5,6); (7,8); (9,10); (11,12); (13,14); (15,16); (17,18);
   (19,20); (21,22); (23,24); (25,26); (27,28); (29,30); (31,32); (39,40); (43,44)].

(** detail/sorting_network/sort50.h, operator(). *)
Definition swaps50 : list (N * N) :=
  [(0,8); (1,7); (2,6); (3,11); (4,10); (5,9); (12,24); (13,22); (14,21); (15,19); (17,23); (18,20);
   (25,33); (26,32); (27,31); (28,36); (29,35); (30,34); (37,49); (38,47); (39,46); (40,44);
   (42,48); (43,45); (0,1); (2,5); (3,4); (6,9); (7,8); (10,11); (13,18); (14,15); (16,23); (19,21);
   (20,22); (25,26); (27,30); (28,29); (31,34); (32,33); (35,36); (38,43); (39,40); (41,48);
   (44,46); (45,47); (0,2); (1,6); (5,10); (9,11); (12,16); (13,14); (15,18); (19,20); (21,22);
   (23,24); (25,27); (26,31); (30,35); (34,36); (37,41); (38,39); (40,43); (44,45); (46,47);
   (48,49); (0,3); (1,2); (4,6); (5,7); (8,11); (9,10); (16,18); (17,21); (20,23); (22,24); (25,28);
   (26,27); (29,31); (30,32); (33,36); (34,35); (41,43); (42,46); (45,48); (47,49); (0,25); (1,4);
   (3,5); (6,8); (7,10); (12,17); (15,20); (16,19); (18,23); (21,22); (26,29); (28,30); (31,33);
   (32,35); (37,42); (40,45); (41,44); (43,48); (46,47); (1,3); (2,5); (6,9); (8,10); (12,13);
   (14,17); (18,21); (19,20); (22,23); (26,28); (27,30); (31,34); (33,35); (37,38); (39,42);
   (43,46); (44,45); (47,48); (2,3); (4,5); (6,7); (8,9); (11,23); (12,37); (13,15); (14,16);
   (17,18); (21,22); (27,28); (29,30); (31,32); (33,34); (36,48); (38,40); (39,41); (42,43);
   (46,47); (0,12); (4,6); (5,7); (10,22); (11,36); (13,14); (15,16); (17,19); (18,20); (23,48);
   (29,31); (30,32); (35,47); (38,39); (40,41); (42,44); (43,45); (1,13); (3,4); (5,6); (7,8);
   (10,35); (14,15); (16,17); (18,19); (20,21); (22,47); (23,36); (26,38); (28,29); (30,31);
   (32,33); (39,40); (41,42); (43,44); (45,46); (1,26); (2,14); (4,29); (5,30); (6,31); (7,32);
   (8,49); (9,21); (13,38); (15,16); (17,18); (19,44); (20,45); (22,35); (24,33); (27,39); (34,46);
   (40,41); (42,43); (2,27); (3,15); (4,37); (7,19); (8,24); (9,34); (13,26); (14,39); (16,41);
   (17,42); (18,43); (21,46); (28,40); (29,45); (32,44); (33,49); (3,28); (4,12); (5,17); (6,18);
   (9,38); (10,39); (14,27); (15,40); (16,25); (19,32); (20,29); (21,34); (24,33); (30,42); (31,43);
   (36,44); (48,49); (5,13); (6,14); (8,16); (9,26); (10,27); (11,40); (12,20); (15,28); (17,30);
   (18,31); (21,38); (22,39); (25,41); (29,37); (33,45); (34,42); (35,43); (47,48); (4,8); (7,15);
   (9,13); (10,14); (11,28); (16,25); (17,26); (18,27); (20,29); (21,30); (22,31); (23,40); (24,41);
   (34,38); (35,39); (43,45); (1,4); (3,9); (8,12); (11,15); (13,17); (14,18); (16,20); (19,28);
   (21,26); (22,27); (23,32); (24,25); (30,34); (31,35); (33,41); (36,40); (2,8); (7,13); (11,17);
   (12,16); (15,19); (23,28); (24,29); (25,37); (32,36); (39,41); (40,46); (2,4); (5,8); (6,12);
   (10,16); (11,13); (15,21); (19,26); (20,24); (23,30); (25,29); (28,34); (32,38); (33,37);
   (36,42); (40,43); (45,46); (6,8); (7,10); (9,12); (14,20); (18,24); (22,25); (27,29); (31,33);
   (35,37); (36,39); (41,42); (44,46); (3,6); (7,12); (14,16); (15,18); (17,20); (19,24); (21,22);
   (23,25); (26,27); (28,29); (30,31); (32,35); (33,34); (37,38); (40,41); (42,43); (44,47); (3,5);
   (6,8); (7,9); (10,12); (11,14); (13,16); (15,17); (18,20); (19,21); (22,24); (23,26); (25,27);
   (28,30); (29,31); (32,33); (34,35); (36,37); (38,39); (41,42); (44,45); (46,47); (3,4); (7,8);
   (11,12); (13,14); (15,16); (17,18); (19,20); (21,22); (23,24); (25,26); (27,28); (29,30);
   (31,32); (33,34); (35,36); (37,38); (39,40); (43,44); (47,48)].
(** detail/sorting_network/sort50.h, index_pairs(). *)
Definition pairs50 : list (N * N) :=
  [(0,8); (1,7); (2,6); (3,11); (4,10); (5,9); (12,24); (13,22); (14,21); (15,19); (17,23); (18,20);
   (25,33); (26,32); (27,31); (28,36); (29,35); (30,34); (37,49); (38,47); (39,46); (40,44);
   (42,48); (43,45); (0,1); (2,5); (3,4); (6,9); (7,8); (10,11); (13,18); (14,15); (16,23); (19,21);
   (20,22); (25,26); (27,30); (28,29); (31,34); (32,33); (35,36); (38,43); (39,40); (41,48);
   (44,46); (45,47); (0,2); (1,6); (5,10); (9,11); (12,16); (13,14); (15,18); (19,20); (21,22);
   (23,24); (25,27); (26,31); (30,35); (34,36); (37,41); (38,39); (40,43); (44,45); (46,47);
   (48,49); (0,3); (1,2); (4,6); (5,7); (8,11); (9,10); (16,18); (17,21); (20,23); (22,24); (25,28);
   (26,27); (29,31); (30,32); (33,36); (34,35); (41,43); (42,46); (45,48); (47,49); (0,25); (1,4);
   (3,5); (6,8); (7,10); (12,17); (15,20); (16,19); (18,23); (21,22); (26,29); (28,30); (31,33);
   (32,35); (37,42); (40,45); (41,44); (43,48); (46,47); (1,3); (2,5); (6,9); (8,10); (12,13);
   (14,17); (18,21); (19,20); (22,23); (26,28); (27,30); (31,34); (33,35); (37,38); (39,42);
   (43,46); (44,45); (47,48); (2,3); (4,5); (6,7); (8,9); (11,23); (12,37); (13,15); (14,16);
   (17,18); (21,22); (27,28); (29,30); (31,32); (33,34); (36,48); (38,40); (39,41); (42,43);
   (46,47); (0,12); (4,6); (5,7); (10,22); (11,36); (13,14); (15,16); (17,19); (18,20); (23,48);
   (29,31); (30,32); (35,47); (38,39); (40,41); (42,44); (43,45); (1,13); (3,4); (5,6); (7,8);
   (10,35); (14,15); (16,17); (18,19); (20,21); (22,47); (23,36); (26,38); (28,29); (30,31);
   (32,33); (39,40); (41,42); (43,44); (45,46); (1,26); (2,14); (4,29); (5,30); (6,31); (7,32);
   (8,49); (9,21); (13,38); (15,16); (17,18); (19,44); (20,45); (22,35); (24,33); (27,39); (34,46);
   (40,41); (42,43); (2,27); (3,15); (4,37); (7,19); (8,24); (9,34); (13,26); (14,39); (16,41);
   (17,42); (18,43); (21,46); (28,40); (29,45); (32,44); (33,49); (3,28); (4,12); (5,17); (6,18);
   (9,38); (10,39); (14,27); (15,40); (16,25); (19,32); (20,29); (21,34); (24,33); (30,42); (31,43);
   (36,44); (48,49); (5,13); (6,14); (8,16); (9,26); (10,27); (11,40); (12,20); (15,28); (17,30);
   (18,31); (21,38); (22,39); (25,41); (29,37); (33,45); (34,42); (35,43); (47,48); (4,8); (7,15);
   (9,13); (10,14); (11,28); (16,25); (17,26); (18,27); (20,29); (21,30); (22,31); (23,40); (24,41);
   (34,38); (35,39); (43,45); (1,4); (3,9); (8,12); (11,15); (13,17); (14,18); (16,20); (19,28);
   (21,26); (22,27); (23,32); (24,25); (30,34); (31,35); (33,41); (36,40); (2,8); (7,13); (11,17);
   (12,16); (15,19); (23,28); (24,29); (25,37); (32,36); (39,41); (40,46); (2,4); (5,8); (6,12);
   (10,16); (11,13); (15,21); (19,26); (20,24); (23,30); (25,29); (28,34); (32,38); (33,37);
   (36,42); (40,43); (45,46); (6,8); (7,10); (9,12); (14,20); (18,24); (22,25); (27,29); (31,33);
   (35,37); (36,39); (41,42); (44,46); (3,6); (7,12); (14,16); (15,18); (17,20); (19,24); (21,22);
   (23,25); (26,27); (28,29); (30,31); (32,35); (33,34); (37,38); (40,41); (42,43); (44,47); (3,5);
   (6,8); (7,9); (10,12); (11,14); (13,16); (15,17); (18,20); (19,21); (22,24); (23,26); (25,27);
   (28,30); (29,31); (32,33); (34,35); (36,37); (38,39); (41,42); (44,45); (46,47); (3,4); (7,8);
   (11,12); (13,14); (15,16); (17,18); (19,20); (21,22); (23,24); (25,26); (27,28); (29,30);
   (31,32); (33,34); (35,36); (37,38); (39,40); (43,44); (47,48)].

(** detail/sorting_network/sort51.h, operator(). *)
Definition swaps51 : list (N * N) :=
  [(0,8); (1,7); (2,6); (3,11); (4,10); (5,9); (12,24); (13,22); (14,21); (15,19); (17,23); (18,20);
   (25,37); (26,35); (27,34); (28,32); (30,36); (31,33); (38,50); (39,48); (40,47); (41,45);
   (43,49); (44,46); (0,1); (2,5); (3,4); (6,9); (7,8); (10,11); (13,18); (14,15); (16,23); (19,21);
   (20,22); (26,31); (27,28); (29,36); (32,34); (33,35); (39,44); (40,41); (42,49); (45,47);
   (46,48); (0,2); (1,6); (5,10); (9,11); (12,16); (13,14); (15,18); (19,20); (21,22); (23,24);
   (25,29); (26,27); (28,31); (32,33); (34,35); (36,37); (38,42); (39,40); (41,44); (45,46);
   (47,48); (49,50); (0,3); (1,2); (4,6); (5,7); (8,11); (9,10); (16,18); (17,21); (20,23); (22,24);
   (29,31); (30,34); (33,36); (35,37); (42,44); (43,47); (46,49); (48,50); (1,4); (3,5); (6,8);
   (7,10); (12,17); (15,20); (16,19); (18,23); (21,22); (25,30); (28,33); (29,32); (31,36); (34,35);
   (37,50); (38,43); (41,46); (42,45); (44,49); (47,48); (1,3); (2,5); (6,9); (8,10); (12,13);
   (14,17); (18,21); (19,20); (22,23); (25,26); (27,30); (31,34); (32,33); (35,36); (38,39);
   (40,43); (44,47); (45,46); (48,49); (2,3); (4,5); (6,7); (8,9); (11,23); (12,38); (13,15);
   (14,16); (17,18); (21,22); (26,28); (27,29); (30,31); (34,35); (36,49); (39,41); (40,42);
   (43,44); (47,48); (4,6); (5,7); (10,22); (11,36); (12,25); (13,14); (15,16); (17,19); (18,20);
   (23,49); (26,27); (28,29); (30,32); (31,33); (35,48); (39,40); (41,42); (43,45); (44,46); (1,13);
   (3,4); (5,6); (7,8); (10,35); (14,15); (16,17); (18,19); (20,21); (22,48); (23,36); (26,39);
   (27,28); (29,30); (31,32); (33,34); (40,41); (42,43); (44,45); (46,47); (1,26); (2,14); (4,33);
   (7,32); (8,24); (9,21); (13,39); (15,16); (17,18); (19,45); (20,46); (22,35); (27,40); (28,29);
   (30,31); (34,47); (41,42); (43,44); (0,29); (2,27); (3,15); (4,38); (5,30); (6,31); (7,19);
   (8,37); (9,34); (13,26); (14,40); (16,42); (17,43); (18,44); (20,25); (21,47); (24,50); (28,41);
   (32,45); (33,46); (0,16); (3,28); (4,20); (5,17); (6,18); (9,39); (10,40); (14,27); (15,41);
   (19,32); (21,34); (24,37); (29,42); (30,43); (31,44); (33,38); (36,45); (49,50); (0,12); (5,13);
   (6,14); (8,29); (9,26); (10,27); (11,41); (15,28); (17,30); (18,31); (21,39); (22,40); (24,42);
   (25,33); (34,43); (35,44); (37,46); (4,12); (7,15); (9,13); (10,14); (11,28); (16,29); (17,26);
   (18,27); (20,25); (21,30); (22,31); (23,41); (33,38); (34,39); (35,40); (37,42); (46,48); (1,4);
   (3,9); (8,16); (11,15); (13,17); (14,18); (19,28); (21,26); (22,27); (23,32); (24,29); (30,34);
   (31,35); (36,41); (42,45); (48,49); (7,13); (8,20); (11,17); (15,19); (16,25); (23,28); (24,33);
   (29,38); (32,36); (41,47); (42,44); (8,12); (15,21); (16,20); (19,26); (23,30); (24,25); (28,34);
   (29,33); (32,39); (36,43); (37,38); (46,47); (2,8); (6,12); (10,16); (14,20); (18,24); (22,25);
   (27,29); (31,33); (32,34); (35,37); (38,40); (41,43); (44,46); (45,47); (2,4); (3,8); (5,6);
   (7,10); (9,12); (11,14); (13,16); (15,20); (17,18); (19,22); (21,24); (23,27); (25,26); (28,31);
   (29,30); (33,35); (36,38); (37,39); (40,42); (45,46); (47,48); (3,5); (6,8); (7,12); (11,16);
   (15,17); (18,20); (19,24); (23,25); (26,27); (28,29); (30,31); (32,33); (34,35); (36,39);
   (40,41); (42,43); (3,4); (5,6); (7,9); (10,12); (11,13); (14,16); (17,18); (19,21); (22,24);
   (25,26); (27,28); (29,30); (31,32); (33,34); (36,37); (38,39); (41,42); (43,44); (7,8); (11,12);
   (15,16); (19,20); (23,24); (35,36); (39,40)].
(** detail/sorting_network/sort51.h, index_pairs(). *)
Definition pairs51 : list (N * N) :=
  [(0,8); (1,7); (2,6); (3,11); (4,10); (5,9); (12,24); (13,22); (14,21); (15,19); (17,23); (18,20);
   (25,37); (26,35); (27,34); (28,32); (30,36); (31,33); (38,50); (39,48); (40,47); (41,45);
   (43,49); (44,46); (0,1); (2,5); (3,4); (6,9); (7,8); (10,11); (13,18); (14,15); (16,23); (19,21);
   (20,22); (26,31); (27,28); (29,36); (32,34); (33,35); (39,44); (40,41); (42,49); (45,47);
   (46,48); (0,2); (1,6); (5,10); (9,11); (12,16); (13,14); (15,18); (19,20); (21,22); (23,24);
   (25,29); (26,27); (28,31); (32,33); (34,35); (36,37); (38,42); (39,40); (41,44); (45,46);
   (47,48); (49,50); (0,3); (1,2); (4,6); (5,7); (8,11); (9,10); (16,18); (17,21); (20,23); (22,24);
   (29,31); (30,34); (33,36); (35,37); (42,44); (43,47); (46,49); (48,50); (1,4); (3,5); (6,8);
   (7,10); (12,17); (15,20); (16,19); (18,23); (21,22); (25,30); (28,33); (29,32); (31,36); (34,35);
   (37,50); (38,43); (41,46); (42,45); (44,49); (47,48); (1,3); (2,5); (6,9); (8,10); (12,13);
   (14,17); (18,21); (19,20); (22,23); (25,26); (27,30); (31,34); (32,33); (35,36); (38,39);
   (40,43); (44,47); (45,46); (48,49); (2,3); (4,5); (6,7); (8,9); (11,23); (12,38); (13,15);
   (14,16); (17,18); (21,22); (26,28); (27,29); (30,31); (34,35); (36,49); (39,41); (40,42);
   (43,44); (47,48); (4,6); (5,7); (10,22); (11,36); (12,25); (13,14); (15,16); (17,19); (18,20);
   (23,49); (26,27); (28,29); (30,32); (31,33); (35,48); (39,40); (41,42); (43,45); (44,46); (1,13);
   (3,4); (5,6); (7,8); (10,35); (14,15); (16,17); (18,19); (20,21); (22,48); (23,36); (26,39);
   (27,28); (29,30); (31,32); (33,34); (40,41); (42,43); (44,45); (46,47); (1,26); (2,14); (4,33);
   (7,32); (8,24); (9,21); (13,39); (15,16); (17,18); (19,45); (20,46); (22,35); (27,40); (28,29);
   (30,31); (34,47); (41,42); (43,44); (0,29); (2,27); (3,15); (4,38); (5,30); (6,31); (7,19);
   (8,37); (9,34); (13,26); (14,40); (16,42); (17,43); (18,44); (20,25); (21,47); (24,50); (28,41);
   (32,45); (33,46); (0,16); (3,28); (4,20); (5,17); (6,18); (9,39); (10,40); (14,27); (15,41);
   (19,32); (21,34); (24,37); (29,42); (30,43); (31,44); (33,38); (36,45); (49,50); (0,12); (5,13);
   (6,14); (8,29); (9,26); (10,27); (11,41); (15,28); (17,30); (18,31); (21,39); (22,40); (24,42);
   (25,33); (34,43); (35,44); (37,46); (4,12); (7,15); (9,13); (10,14); (11,28); (16,29); (17,26);
   (18,27); (20,25); (21,30); (22,31); (23,41); (33,38); (34,39); (35,40); (37,42); (46,48); (1,4);
   (3,9); (8,16); (11,15); (13,17); (14,18); (19,28); (21,26); (22,27); (23,32); (24,29); (30,34);
   (31,35); (36,41); (42,45); (48,49); (7,13); (8,20); (11,17); (15,19); (16,25); (23,28); (24,33);
   (29,38); (32,36); (41,47); (42,44); (8,12); (15,21); (16,20); (19,26); (23,30); (24,25); (28,34);
   (29,33); (32,39); (36,43); (37,38); (46,47); (2,8); (6,12); (10,16); (14,20); (18,24); (22,25);
   (27,29); (31,33); (32,34); (35,37); (38,40); (41,43); (44,46); (45,47); (2,4); (3,8); (5,6);
   (7,10); (9,12); (11,14); (13,16); (15,20); (17,18); (19,22); (21,24); (23,27); (25,26); (28,31);
   (29,30); (33,35); (36,38); (37,39); (40,42); (45,46); (47,48); (3,5); (6,8); (7,12); (11,16);
   (15,17); (18,20); (19,24); (23,25); (26,27); (28,29); (30,31); (32,33); (34,35); (36,39);
   (40,41); (42,43); (3,4); (5,6); (7,9); (10,12); (11,13); (14,16); (17,18); (19,21); (22,24);
   (25,26); (27,28); (29,30); (31,32); (33,34); (36,37); (38,39); (41,42); (43,44); (7,8); (11,12);
   (15,16); (19,20); (23,24); (35,36); (39,40)].

(** detail/sorting_network/sort52.h, operator(). *)
Definition swaps52 : list (N * N) :=
  [(0,2); (1,3); (4,6); (5,7); (8,10); (9,11); (12,14); (13,15); (16,18); (17,19); (20,22); (21,23);
   (24,26); (25,27); (28,30); (29,31); (32,34); (33,35); (36,38); (37,39); (40,42); (41,43);
   (44,46); (45,47); (48,50); (49,51); (0,1); (2,3); (4,5); (6,7); (8,9); (10,11); (12,13); (14,15);
   (16,17); (18,19); (20,21); (22,23); (24,25); (26,27); (28,29); (30,31); (32,33); (34,35);
   (36,37); (38,39); (40,41); (42,43); (44,45); (46,47); (48,49); (50,51); (0,48); (1,2); (3,51);
   (4,40); (5,6); (7,31); (8,36); (9,10); (11,47); (12,28); (13,14); (15,43); (17,18); (19,27);
   (20,44); (21,22); (23,39); (24,32); (25,26); (29,30); (33,34); (37,38); (41,42); (45,46);
   (49,50); (1,49); (2,50); (4,24); (5,41); (6,30); (7,35); (8,12); (9,37); (10,46); (11,19);
   (13,29); (14,42); (15,23); (16,44); (18,26); (21,45); (22,38); (25,33); (27,47); (28,36);
   (32,40); (39,43); (0,16); (3,7); (4,8); (5,25); (6,34); (9,13); (10,18); (11,15); (12,24);
   (14,22); (17,45); (19,23); (26,46); (27,39); (28,32); (29,37); (33,41); (35,51); (36,40);
   (38,42); (43,47); (44,48); (1,17); (2,6); (3,11); (5,9); (7,19); (10,14); (13,25); (15,31);
   (16,24); (18,22); (20,36); (26,38); (27,35); (29,33); (32,44); (34,50); (37,41); (40,48);
   (42,46); (45,49); (0,20); (2,10); (6,18); (7,27); (11,15); (12,32); (14,30); (16,28); (17,25);
   (19,39); (21,37); (23,35); (24,44); (26,34); (31,51); (33,45); (36,40); (41,49); (0,4); (1,21);
   (6,26); (7,11); (8,20); (10,14); (13,33); (15,27); (17,29); (18,38); (19,23); (22,34); (24,36);
   (25,45); (28,32); (30,50); (31,43); (37,41); (40,44); (47,51); (1,5); (4,12); (6,10); (8,16);
   (9,21); (11,15); (14,26); (18,22); (20,24); (25,37); (27,31); (29,33); (30,42); (35,43); (36,40);
   (39,47); (41,45); (46,50); (4,8); (5,13); (9,17); (10,14); (12,16); (19,27); (20,28); (21,25);
   (23,31); (24,32); (26,30); (34,42); (35,39); (37,41); (38,46); (43,47); (5,9); (8,12); (10,40);
   (11,41); (13,17); (15,19); (16,20); (18,26); (21,29); (22,30); (23,27); (24,28); (25,33);
   (31,35); (32,36); (34,38); (39,43); (42,46); (2,32); (7,36); (9,13); (11,40); (12,16); (14,18);
   (15,44); (17,21); (19,49); (20,24); (22,26); (25,29); (27,31); (30,34); (33,37); (35,39);
   (38,42); (1,16); (3,33); (5,12); (9,24); (10,32); (13,17); (14,15); (18,48); (19,41); (21,25);
   (26,30); (27,42); (34,38); (35,50); (36,37); (39,46); (1,4); (2,16); (3,18); (6,21); (11,25);
   (13,28); (15,29); (17,32); (19,34); (22,36); (23,38); (26,40); (30,45); (33,48); (35,49);
   (47,50); (2,8); (3,24); (6,20); (7,21); (10,17); (12,13); (14,28); (18,32); (19,33); (23,37);
   (27,48); (30,44); (31,45); (34,41); (38,39); (43,49); (2,4); (3,16); (6,12); (7,20); (11,24);
   (15,28); (19,25); (21,22); (23,36); (26,32); (27,40); (29,30); (31,44); (35,48); (39,45);
   (47,49); (3,9); (7,13); (10,16); (11,17); (14,20); (15,21); (18,24); (19,26); (22,28); (23,29);
   (25,32); (27,33); (30,36); (31,37); (34,40); (35,41); (38,44); (42,48); (3,8); (7,9); (10,12);
   (11,13); (14,16); (15,17); (18,20); (19,22); (21,24); (23,25); (26,28); (27,30); (29,32);
   (31,33); (34,36); (35,37); (38,40); (39,41); (42,44); (43,48); (3,5); (6,8); (7,10); (9,12);
   (11,14); (13,16); (15,18); (17,20); (19,21); (22,24); (23,26); (25,28); (27,29); (30,32);
   (31,34); (33,36); (35,38); (37,40); (39,42); (41,44); (43,45); (46,48); (3,4); (5,6); (7,8);
   (9,10); (11,12); (13,14); (15,16); (17,18); (19,20); (21,22); (23,24); (25,26); (27,28); (29,30);
   (31,32); (33,34); (35,36); (37,38); (39,40); (41,42); (43,44); (45,46); (47,48)].
(** detail/sorting_network/sort52.h, index_pairs(). *)
Definition pairs52 : list (N * N) :=
  [(0,2); (1,3); (4,6); (5,7); (8,10); (9,11); (12,14); (13,15); (16,18); (17,19); (20,22); (21,23);
   (24,26); (25,27); (28,30); (29,31); (32,34); (33,35); (36,38); (37,39); (40,42); (41,43);
   (44,46); (45,47); (48,50); (49,51); (0,1); (2,3); (4,5); (6,7); (8,9); (10,11); (12,13); (14,15);
   (16,17); (18,19); (20,21); (22,23); (24,25); (26,27); (28,29); (30,31); (32,33); (34,35);
   (36,37); (38,39); (40,41); (42,43); (44,45); (46,47); (48,49); (50,51); (0,48); (1,2); (3,51);
   (4,40); (5,6); (7,31); (8,36); (9,10); (11,47); (12,28); (13,14); (15,43); (17,18); (19,27);
   (20,44); (21,22); (23,39); (24,32); (25,26); (29,30); (33,34); (37,38); (41,42); (45,46);
   (49,50); (1,49); (2,50); (4,24); (5,41); (6,30); (7,35); (8,12); (9,37); (10,46); (11,19);
   (13,29); (14,42); (15,23); (16,44); (18,26); (21,45); (22,38); (25,33); (27,47); (28,36);
   (32,40); (39,43); (0,16); (3,7); (4,8); (5,25); (6,34); (9,13); (10,18); (11,15); (12,24);
   (14,22); (17,45); (19,23); (26,46); (27,39); (28,32); (29,37); (33,41); (35,51); (36,40);
   (38,42); (43,47); (44,48); (1,17); (2,6); (3,11); (5,9); (7,19); (10,14); (13,25); (15,31);
   (16,24); (18,22); (20,36); (26,38); (27,35); (29,33); (32,44); (34,50); (37,41); (40,48);
   (42,46); (45,49); (0,20); (2,10); (6,18); (7,27); (11,15); (12,32); (14,30); (16,28); (17,25);
   (19,39); (21,37); (23,35); (24,44); (26,34); (31,51); (33,45); (36,40); (41,49); (0,4); (1,21);
   (6,26); (7,11); (8,20); (10,14); (13,33); (15,27); (17,29); (18,38); (19,23); (22,34); (24,36);
   (25,45); (28,32); (30,50); (31,43); (37,41); (40,44); (47,51); (1,5); (4,12); (6,10); (8,16);
   (9,21); (11,15); (14,26); (18,22); (20,24); (25,37); (27,31); (29,33); (30,42); (35,43); (36,40);
   (39,47); (41,45); (46,50); (4,8); (5,13); (9,17); (10,14); (12,16); (19,27); (20,28); (21,25);
   (23,31); (24,32); (26,30); (34,42); (35,39); (37,41); (38,46); (43,47); (5,9); (8,12); (10,40);
   (11,41); (13,17); (15,19); (16,20); (18,26); (21,29); (22,30); (23,27); (24,28); (25,33);
   (31,35); (32,36); (34,38); (39,43); (42,46); (2,32); (7,36); (9,13); (11,40); (12,16); (14,18);
   (15,44); (17,21); (19,49); (20,24); (22,26); (25,29); (27,31); (30,34); (33,37); (35,39);
   (38,42); (1,16); (3,33); (5,12); (9,24); (10,32); (13,17); (14,15); (18,48); (19,41); (21,25);
   (26,30); (27,42); (34,38); (35,50); (36,37); (39,46); (1,4); (2,16); (3,18); (6,21); (11,25);
   (13,28); (15,29); (17,32); (19,34); (22,36); (23,38); (26,40); (30,45); (33,48); (35,49);
   (47,50); (2,8); (3,24); (6,20); (7,21); (10,17); (12,13); (14,28); (18,32); (19,33); (23,37);
   (27,48); (30,44); (31,45); (34,41); (38,39); (43,49); (2,4); (3,16); (6,12); (7,20); (11,24);
   (15,28); (19,25); (21,22); (23,36); (26,32); (27,40); (29,30); (31,44); (35,48); (39,45);
   (47,49); (3,9); (7,13); (10,16); (11,17); (14,20); (15,21); (18,24); (19,26); (22,28); (23,29);
   (25,32); (27,33); (30,36); (31,37); (34,40); (35,41); (38,44); (42,48); (3,8); (7,9); (10,12);
   (11,13); (14,16); (15,17); (18,20); (19,22); (21,24); (23,25); (26,28); (27,30); (29,32);
   (31,33); (34,36); (35,37); (38,40); (39,41); (42,44); (43,48); (3,5); (6,8); (7,10); (9,12);
   (11,14); (13,16); (15,18); (17,20); (19,21); (22,24); (23,26); (25,28); (27,29); (30,32);
   (31,34); (33,36); (35,38); (37,40); (39,42); (41,44); (43,45); (46,48); (3,4); (5,6); (7,8);
   (9,10); (11,12); (13,14); (15,16); (17,18); (19,20); (21,22); (23,24); (25,26); (27,28); (29,30);
   (31,32); (33,34); (35,36); (37,38); (39,40); (41,42); (43,44); (45,46); (47,48)].

(** detail/sorting_network/sort53.h, operator(). *)
Definition swaps53 : list (N * N) :=
  [(0,12); (1,10); (2,9); (3,7); (5,11); (6,8); (13,25); (14,23); (15,22); (16,20); (18,24); (19,21);
   (26,38); (27,36); (28,35); (29,33); (31,37); (32,34); (39,45); (40,50); (41,51); (42,49);
   (43,44); (46,52); (47,48); (1,6); (2,3); (4,11); (7,9); (8,10); (14,19); (15,16); (17,24);
   (20,22); (21,23); (27,32); (28,29); (30,37); (33,35); (34,36); (40,41); (42,46); (43,47);
   (44,48); (45,49); (50,51); (0,4); (1,2); (3,6); (7,8); (9,10); (11,12); (13,17); (14,15);
   (16,19); (20,21); (22,23); (24,25); (26,30); (27,28); (29,32); (33,34); (35,36); (37,38);
   (39,43); (40,42); (44,45); (46,47); (48,52); (49,51); (4,6); (5,9); (8,11); (10,12); (17,19);
   (18,22); (21,24); (23,25); (30,32); (31,35); (34,37); (36,38); (39,40); (41,48); (42,46);
   (43,50); (45,49); (51,52); (0,5); (3,8); (4,7); (6,11); (9,10); (13,18); (16,21); (17,20);
   (19,24); (22,23); (25,38); (26,31); (29,34); (30,33); (32,37); (35,36); (41,44); (43,46);
   (45,48); (47,50); (0,1); (2,5); (6,9); (7,8); (10,11); (13,14); (15,18); (19,22); (20,21);
   (23,24); (26,27); (28,31); (32,35); (33,34); (36,37); (40,41); (42,43); (45,46); (48,49);
   (50,51); (0,26); (1,3); (2,4); (5,6); (9,10); (11,24); (13,39); (14,16); (15,17); (18,19);
   (22,23); (27,29); (28,30); (31,32); (35,36); (40,42); (41,43); (44,45); (46,47); (48,50);
   (49,51); (0,13); (1,2); (3,4); (5,7); (6,8); (10,23); (12,51); (14,15); (16,17); (18,20);
   (19,21); (26,39); (27,28); (29,30); (31,33); (32,34); (41,42); (43,46); (45,48); (49,50); (1,27);
   (2,3); (4,5); (6,7); (8,9); (12,25); (13,26); (14,40); (15,16); (17,18); (19,20); (21,22);
   (28,29); (30,31); (32,33); (34,35); (37,50); (38,51); (43,44); (45,46); (47,48); (1,14); (2,15);
   (3,4); (5,6); (7,33); (8,34); (9,35); (11,37); (16,17); (18,19); (22,52); (24,50); (25,38);
   (27,40); (28,41); (29,30); (31,32); (42,43); (44,45); (46,47); (48,49); (2,28); (3,16); (4,43);
   (5,31); (6,32); (9,22); (14,27); (15,41); (17,30); (19,45); (20,46); (21,47); (24,37); (29,42);
   (35,52); (36,49); (3,29); (4,17); (5,44); (6,19); (7,20); (8,21); (10,36); (15,28); (16,42);
   (18,31); (22,35); (23,49); (30,43); (32,45); (33,46); (34,47); (4,13); (6,15); (8,26); (10,41);
   (11,42); (12,17); (16,29); (19,32); (20,33); (21,34); (23,36); (25,43); (31,48); (37,46);
   (38,47); (40,44); (1,4); (7,16); (8,13); (9,31); (10,28); (11,29); (17,30); (18,40); (21,39);
   (22,44); (23,41); (24,42); (35,48); (36,45); (38,43); (47,52); (2,8); (5,18); (9,27); (10,15);
   (11,16); (12,21); (17,26); (19,28); (20,29); (23,32); (24,33); (25,39); (30,34); (31,40);
   (35,44); (36,41); (37,42); (43,49); (46,47); (2,4); (5,14); (12,17); (15,19); (16,20); (21,26);
   (23,28); (24,29); (25,30); (27,31); (32,36); (33,37); (34,39); (35,40); (42,48); (49,50); (5,8);
   (9,14); (12,13); (17,21); (18,27); (22,31); (25,26); (30,34); (33,40); (37,44); (38,39); (43,48);
   (47,49); (50,52); (3,9); (6,12); (10,13); (14,18); (15,17); (19,21); (22,27); (23,25); (26,28);
   (30,32); (31,35); (34,36); (38,41); (39,45); (49,50); (51,52); (3,6); (7,14); (10,12); (11,18);
   (16,22); (20,27); (24,31); (25,26); (29,35); (32,33); (36,37); (38,40); (39,42); (41,44);
   (45,46); (3,8); (7,9); (11,15); (13,14); (16,19); (17,18); (20,23); (21,22); (24,27); (28,31);
   (29,30); (34,35); (36,38); (37,40); (39,44); (43,45); (46,48); (3,5); (6,8); (7,10); (9,12);
   (11,13); (14,15); (16,17); (18,19); (20,21); (22,23); (24,25); (26,27); (28,29); (30,31);
   (32,34); (33,35); (37,38); (39,41); (42,44); (45,46); (47,48); (3,4); (7,8); (9,10); (11,12);
   (13,14); (15,16); (17,18); (19,20); (21,22); (23,24); (25,26); (27,28); (29,30); (31,32);
   (33,34); (35,36); (39,40); (43,44)].
(** detail/sorting_network/sort53.h, index_pairs(). *)
Definition pairs53 : list (N * N) :=
  [(0,12); (1,10); (2,9); (3,7); (5,11); (6,8); (13,25); (14,23); (15,22); (16,20); (18,24); (19,21);
   (26,38); (27,36); (28,35); (29,33); (31,37); (32,34); (39,45); (40,50); (41,51); (42,49);
   (43,44); (46,52); (47,48); (1,6); (2,3); (4,11); (7,9); (8,10); (14,19); (15,16); (17,24);
   (20,22); (21,23); (27,32); (28,29); (30,37); (33,35); (34,36); (40,41); (42,46); (43,47);
   (44,48); (45,49); (50,51); (0,4); (1,2); (3,6); (7,8); (9,10); (11,12); (13,17); (14,15);
   (16,19); (20,21); (22,23); (24,25); (26,30); (27,28); (29,32); (33,34); (35,36); (37,38);
   (39,43); (40,42); (44,45); (46,47); (48,52); (49,51); (4,6); (5,9); (8,11); (10,12); (17,19);
   (18,22); (21,24); (23,25); (30,32); (31,35); (34,37); (36,38); (39,40); (41,48); (42,46);
   (43,50); (45,49); (51,52); (0,5); (3,8); (4,7); (6,11); (9,10); (13,18); (16,21); (17,20);
   (19,24); (22,23); (25,38); (26,31); (29,34); (30,33); (32,37); (35,36); (41,44); (43,46);
   (45,48); (47,50); (0,1); (2,5); (6,9); (7,8); (10,11); (13,14); (15,18); (19,22); (20,21);
   (23,24); (26,27); (28,31); (32,35); (33,34); (36,37); (40,41); (42,43); (45,46); (48,49);
   (50,51); (0,26); (1,3); (2,4); (5,6); (9,10); (11,24); (13,39); (14,16); (15,17); (18,19);
   (22,23); (27,29); (28,30); (31,32); (35,36); (40,42); (41,43); (44,45); (46,47); (48,50);
   (49,51); (0,13); (1,2); (3,4); (5,7); (6,8); (10,23); (12,51); (14,15); (16,17); (18,20);
   (19,21); (26,39); (27,28); (29,30); (31,33); (32,34); (41,42); (43,46); (45,48); (49,50); (1,27);
   (2,3); (4,5); (6,7); (8,9); (12,25); (13,26); (14,40); (15,16); (17,18); (19,20); (21,22);
   (28,29); (30,31); (32,33); (34,35); (37,50); (38,51); (43,44); (45,46); (47,48); (1,14); (2,15);
   (3,4); (5,6); (7,33); (8,34); (9,35); (11,37); (16,17); (18,19); (22,52); (24,50); (25,38);
   (27,40); (28,41); (29,30); (31,32); (42,43); (44,45); (46,47); (48,49); (2,28); (3,16); (4,43);
   (5,31); (6,32); (9,22); (14,27); (15,41); (17,30); (19,45); (20,46); (21,47); (24,37); (29,42);
   (35,52); (36,49); (3,29); (4,17); (5,44); (6,19); (7,20); (8,21); (10,36); (15,28); (16,42);
   (18,31); (22,35); (23,49); (30,43); (32,45); (33,46); (34,47); (4,13); (6,15); (8,26); (10,41);
   (11,42); (12,17); (16,29); (19,32); (20,33); (21,34); (23,36); (25,43); (31,48); (37,46);
   (38,47); (40,44); (1,4); (7,16); (8,13); (9,31); (10,28); (11,29); (17,30); (18,40); (21,39);
   (22,44); (23,41); (24,42); (35,48); (36,45); (38,43); (47,52); (2,8); (5,18); (9,27); (10,15);
   (11,16); (12,21); (17,26); (19,28); (20,29); (23,32); (24,33); (25,39); (30,34); (31,40);
   (35,44); (36,41); (37,42); (43,49); (46,47); (2,4); (5,14); (12,17); (15,19); (16,20); (21,26);
   (23,28); (24,29); (25,30); (27,31); (32,36); (33,37); (34,39); (35,40); (42,48); (49,50); (5,8);
   (9,14); (12,13); (17,21); (18,27); (22,31); (25,26); (30,34); (33,40); (37,44); (38,39); (43,48);
   (47,49); (50,52); (3,9); (6,12); (10,13); (14,18); (15,17); (19,21); (22,27); (23,25); (26,28);
   (30,32); (31,35); (34,36); (38,41); (39,45); (49,50); (51,52); (3,6); (7,14); (10,12); (11,18);
   (16,22); (20,27); (24,31); (25,26); (29,35); (32,33); (36,37); (38,40); (39,42); (41,44);
   (45,46); (3,8); (7,9); (11,15); (13,14); (16,19); (17,18); (20,23); (21,22); (24,27); (28,31);
   (29,30); (34,35); (36,38); (37,40); (39,44); (43,45); (46,48); (3,5); (6,8); (7,10); (9,12);
   (11,13); (14,15); (16,17); (18,19); (20,21); (22,23); (24,25); (26,27); (28,29); (30,31);
   (32,34); (33,35); (37,38); (39,41); (42,44); (45,46); (47,48); (3,4); (7,8); (9,10); (11,12);
   (13,14); (15,16); (17,18); (19,20); (21,22); (23,24); (25,26); (27,28); (29,30); (31,32);
   (33,34); (35,36); (39,40); (43,44)].

(** detail/sorting_network/sort54.h, operator(). *)
Definition swaps54 : list (N * N) :=
  [(0,13); (1,12); (2,15); (3,14); (4,8); (5,6); (7,11); (9,10); (16,35); (17,34); (18,37); (19,36);
   (20,30); (21,22); (23,33); (24,29); (25,27); (26,28); (31,32); (38,51); (39,50); (40,53);
   (41,52); (42,46); (43,44); (45,49); (47,48); (0,5); (1,7); (2,9); (3,4); (6,13); (8,14); (10,15);
   (11,12); (16,21); (17,23); (18,31); (19,20); (22,35); (25,26); (27,28); (30,36); (32,37);
   (33,34); (38,43); (39,45); (40,47); (41,42); (44,51); (46,52); (48,53); (49,50); (0,1); (2,3);
   (4,5); (6,8); (7,9); (10,11); (12,13); (14,15); (16,17); (18,19); (20,21); (22,30); (23,31);
   (24,27); (26,29); (32,33); (34,35); (36,37); (38,39); (40,41); (42,43); (44,46); (45,47);
   (48,49); (50,51); (52,53); (0,2); (1,3); (4,10); (5,11); (6,7); (8,9); (12,14); (13,15); (16,18);
   (17,19); (20,32); (21,33); (22,23); (24,25); (26,27); (28,29); (30,31); (34,36); (35,37);
   (38,40); (39,41); (42,48); (43,49); (44,45); (46,47); (50,52); (51,53); (0,38); (1,2); (3,12);
   (4,6); (5,7); (8,10); (9,11); (13,14); (15,53); (16,24); (17,18); (19,34); (20,22); (21,23);
   (25,26); (27,28); (29,37); (30,32); (31,33); (35,36); (39,40); (41,50); (42,44); (43,45);
   (46,48); (47,49); (51,52); (0,16); (1,4); (2,6); (5,8); (7,10); (9,13); (11,14); (15,29);
   (17,20); (18,22); (21,30); (23,32); (24,38); (31,35); (33,36); (37,53); (39,42); (40,44);
   (43,46); (45,48); (47,51); (49,52); (1,39); (2,4); (3,6); (9,12); (11,13); (14,52); (16,24);
   (18,20); (19,22); (29,37); (31,34); (33,35); (40,42); (41,44); (47,50); (49,51); (1,17); (2,40);
   (3,5); (6,8); (7,9); (10,12); (13,51); (18,26); (19,21); (22,30); (23,31); (27,35); (32,34);
   (36,52); (41,43); (44,46); (45,47); (48,50); (2,18); (3,4); (5,6); (7,8); (9,10); (11,12);
   (13,27); (19,20); (21,22); (23,30); (26,40); (31,32); (33,34); (35,51); (41,42); (43,44);
   (45,46); (47,48); (49,50); (2,24); (3,41); (4,42); (5,43); (6,7); (8,9); (10,48); (11,49);
   (12,50); (13,39); (14,40); (18,26); (19,25); (22,23); (27,35); (28,34); (29,51); (30,31);
   (44,45); (46,47); (3,19); (4,20); (6,44); (7,45); (8,46); (9,47); (10,32); (12,28); (13,17);
   (15,23); (21,43); (25,41); (30,38); (33,49); (34,50); (36,40); (1,3); (4,12); (6,22); (7,15);
   (8,30); (9,17); (10,26); (11,33); (14,32); (19,25); (20,42); (21,39); (23,45); (27,43); (28,34);
   (31,47); (36,44); (38,46); (41,49); (50,52); (1,16); (3,13); (5,21); (6,18); (7,19); (8,24);
   (11,25); (12,20); (14,26); (15,23); (17,31); (22,36); (27,39); (28,42); (29,45); (30,38);
   (32,48); (33,41); (34,46); (35,47); (37,52); (40,50); (4,16); (5,13); (10,18); (11,19); (14,22);
   (17,21); (20,28); (23,29); (24,30); (25,33); (31,39); (32,36); (34,42); (35,43); (37,49);
   (40,48); (2,4); (8,16); (9,17); (12,24); (15,25); (20,30); (21,27); (23,33); (26,32); (28,38);
   (29,41); (36,44); (37,45); (49,51); (3,8); (9,13); (12,16); (14,20); (15,17); (18,24); (19,21);
   (22,28); (23,27); (25,31); (26,30); (29,35); (32,34); (33,39); (36,38); (37,41); (40,44);
   (45,50); (3,4); (6,12); (7,9); (10,16); (11,13); (14,18); (15,19); (17,21); (20,24); (22,26);
   (23,25); (27,31); (28,30); (29,33); (32,36); (34,38); (35,39); (37,43); (40,42); (41,47);
   (44,46); (49,50); (5,7); (6,8); (9,11); (10,12); (13,15); (14,16); (17,19); (18,20); (21,23);
   (22,24); (25,27); (26,28); (29,31); (30,32); (33,35); (34,36); (37,39); (38,40); (41,43);
   (42,44); (45,47); (46,48); (5,8); (7,10); (9,12); (11,14); (13,16); (15,18); (17,20); (19,22);
   (21,24); (23,26); (25,28); (27,30); (29,32); (31,34); (33,36); (35,38); (37,40); (39,42);
   (41,44); (43,46); (45,48); (5,6); (7,8); (9,10); (11,12); (13,14); (15,16); (17,18); (19,20);
   (21,22); (23,24); (25,26); (27,28); (29,30); (31,32); (33,34); (35,36); (37,38); (39,40);
   (41,42); (43,44); (45,46); (47,48)].
(** detail/sorting_network/sort54.h, index_pairs(). *)
Definition pairs54 : list (N * N) :=
  [(0,13); (1,12); (2,15); (3,14); (4,8); (5,6); (7,11); (9,10); (16,35); (17,34); (18,37); (19,36);
   (20,30); (21,22); (23,33); (24,29); (25,27); (26,28); (31,32); (38,51); (39,50); (40,53);
   (41,52); (42,46); (43,44); (45,49); (47,48); (0,5); (1,7); (2,9); (3,4); (6,13); (8,14); (10,15);
   (11,12); (16,21); (17,23); (18,31); (19,20); (22,35); (25,26); (27,28); (30,36); (32,37);
   (33,34); (38,43); (39,45); (40,47); (41,42); (44,51); (46,52); (48,53); (49,50); (0,1); (2,3);
   (4,5); (6,8); (7,9); (10,11); (12,13); (14,15); (16,17); (18,19); (20,21); (22,30); (23,31);
   (24,27); (26,29); (32,33); (34,35); (36,37); (38,39); (40,41); (42,43); (44,46); (45,47);
   (48,49); (50,51); (52,53); (0,2); (1,3); (4,10); (5,11); (6,7); (8,9); (12,14); (13,15); (16,18);
   (17,19); (20,32); (21,33); (22,23); (24,25); (26,27); (28,29); (30,31); (34,36); (35,37);
   (38,40); (39,41); (42,48); (43,49); (44,45); (46,47); (50,52); (51,53); (0,38); (1,2); (3,12);
   (4,6); (5,7); (8,10); (9,11); (13,14); (15,53); (16,24); (17,18); (19,34); (20,22); (21,23);
   (25,26); (27,28); (29,37); (30,32); (31,33); (35,36); (39,40); (41,50); (42,44); (43,45);
   (46,48); (47,49); (51,52); (0,16); (1,4); (2,6); (5,8); (7,10); (9,13); (11,14); (15,29);
   (17,20); (18,22); (21,30); (23,32); (24,38); (31,35); (33,36); (37,53); (39,42); (40,44);
   (43,46); (45,48); (47,51); (49,52); (1,39); (2,4); (3,6); (9,12); (11,13); (14,52); (16,24);
   (18,20); (19,22); (29,37); (31,34); (33,35); (40,42); (41,44); (47,50); (49,51); (1,17); (2,40);
   (3,5); (6,8); (7,9); (10,12); (13,51); (18,26); (19,21); (22,30); (23,31); (27,35); (32,34);
   (36,52); (41,43); (44,46); (45,47); (48,50); (2,18); (3,4); (5,6); (7,8); (9,10); (11,12);
   (13,27); (19,20); (21,22); (23,30); (26,40); (31,32); (33,34); (35,51); (41,42); (43,44);
   (45,46); (47,48); (49,50); (2,24); (3,41); (4,42); (5,43); (6,7); (8,9); (10,48); (11,49);
   (12,50); (13,39); (14,40); (18,26); (19,25); (22,23); (27,35); (28,34); (29,51); (30,31);
   (44,45); (46,47); (3,19); (4,20); (6,44); (7,45); (8,46); (9,47); (10,32); (12,28); (13,17);
   (15,23); (21,43); (25,41); (30,38); (33,49); (34,50); (36,40); (1,3); (4,12); (6,22); (7,15);
   (8,30); (9,17); (10,26); (11,33); (14,32); (19,25); (20,42); (21,39); (23,45); (27,43); (28,34);
   (31,47); (36,44); (38,46); (41,49); (50,52); (1,16); (3,13); (5,21); (6,18); (7,19); (8,24);
   (11,25); (12,20); (14,26); (15,23); (17,31); (22,36); (27,39); (28,42); (29,45); (30,38);
   (32,48); (33,41); (34,46); (35,47); (37,52); (40,50); (4,16); (5,13); (10,18); (11,19); (14,22);
   (17,21); (20,28); (23,29); (24,30); (25,33); (31,39); (32,36); (34,42); (35,43); (37,49);
   (40,48); (2,4); (8,16); (9,17); (12,24); (15,25); (20,30); (21,27); (23,33); (26,32); (28,38);
   (29,41); (36,44); (37,45); (49,51); (3,8); (9,13); (12,16); (14,20); (15,17); (18,24); (19,21);
   (22,28); (23,27); (25,31); (26,30); (29,35); (32,34); (33,39); (36,38); (37,41); (40,44);
   (45,50); (3,4); (6,12); (7,9); (10,16); (11,13); (14,18); (15,19); (17,21); (20,24); (22,26);
   (23,25); (27,31); (28,30); (29,33); (32,36); (34,38); (35,39); (37,43); (40,42); (41,47);
   (44,46); (49,50); (5,7); (6,8); (9,11); (10,12); (13,15); (14,16); (17,19); (18,20); (21,23);
   (22,24); (25,27); (26,28); (29,31); (30,32); (33,35); (34,36); (37,39); (38,40); (41,43);
   (42,44); (45,47); (46,48); (5,8); (7,10); (9,12); (11,14); (13,16); (15,18); (17,20); (19,22);
   (21,24); (23,26); (25,28); (27,30); (29,32); (31,34); (33,36); (35,38); (37,40); (39,42);
   (41,44); (43,46); (45,48); (5,6); (7,8); (9,10); (11,12); (13,14); (15,16); (17,18); (19,20);
   (21,22); (23,24); (25,26); (27,28); (29,30); (31,32); (33,34); (35,36); (37,38); (39,40);
   (41,42); (43,44); (45,46); (47,48)].

(** detail/sorting_network/sort55.h, operator(). *)
Definition swaps55 : list (N * N) :=
  [(1,12); (2,13); (3,14); (4,8); (5,6); (7,11); (9,10); (15,18); (16,37); (17,36); (19,38); (20,32);
   (21,22); (23,35); (24,26); (25,27); (28,30); (29,31); (33,34); (39,42); (40,53); (41,52);
   (43,54); (44,48); (45,46); (47,51); (49,50); (0,5); (1,7); (2,9); (3,4); (8,14); (10,13);
   (11,12); (15,33); (16,21); (17,23); (18,34); (19,20); (22,37); (24,28); (25,29); (26,30);
   (27,31); (32,38); (35,36); (39,49); (40,45); (41,47); (42,50); (43,44); (46,53); (48,54);
   (51,52); (0,1); (2,3); (4,5); (6,8); (7,9); (10,11); (13,14); (15,19); (16,17); (18,35); (20,21);
   (22,32); (23,33); (24,25); (26,27); (28,29); (30,31); (34,38); (36,37); (39,43); (40,41);
   (42,51); (44,45); (46,48); (47,49); (50,54); (52,53); (0,2); (1,3); (4,10); (5,11); (6,7); (8,9);
   (12,13); (15,16); (17,19); (18,20); (21,35); (22,23); (26,28); (27,29); (32,33); (34,36);
   (37,38); (39,40); (41,43); (42,44); (45,51); (46,47); (48,49); (50,52); (53,54); (0,24); (1,2);
   (3,12); (4,6); (5,7); (8,10); (9,11); (13,14); (15,39); (16,17); (18,22); (19,34); (20,32);
   (21,23); (25,28); (27,30); (31,54); (33,35); (36,37); (40,41); (42,46); (43,50); (44,48);
   (45,47); (49,51); (52,53); (0,15); (1,4); (2,6); (5,8); (7,10); (9,13); (11,14); (16,18);
   (17,22); (20,21); (23,32); (24,39); (25,26); (27,28); (29,30); (31,38); (33,36); (35,37);
   (40,42); (41,46); (44,45); (47,48); (49,52); (51,53); (1,16); (2,4); (3,6); (9,12); (11,13);
   (14,30); (15,24); (17,18); (19,22); (25,40); (33,34); (35,36); (37,53); (38,54); (41,42);
   (43,46); (49,50); (51,52); (1,25); (2,26); (3,5); (6,8); (7,9); (10,12); (13,36); (14,37);
   (16,40); (17,41); (19,20); (21,22); (23,33); (29,52); (30,53); (32,34); (43,44); (45,46);
   (47,49); (48,50); (2,17); (3,4); (5,6); (7,8); (9,10); (11,12); (13,29); (16,25); (18,19);
   (20,21); (22,23); (26,41); (30,37); (32,33); (34,35); (36,52); (42,43); (44,45); (46,47);
   (48,49); (50,51); (2,15); (3,27); (4,43); (5,44); (6,7); (8,9); (10,49); (11,50); (12,35);
   (13,25); (17,26); (18,42); (21,22); (23,32); (28,51); (29,36); (30,41); (45,46); (47,48);
   (52,54); (3,18); (4,19); (5,20); (6,21); (7,31); (8,23); (9,40); (12,28); (14,45); (22,46);
   (27,42); (32,48); (33,49); (34,50); (35,51); (39,47); (5,13); (6,14); (7,22); (8,39); (9,32);
   (10,33); (11,34); (12,24); (18,27); (19,43); (20,44); (21,45); (23,47); (28,35); (31,46);
   (38,42); (40,48); (41,49); (4,12); (6,17); (7,18); (8,15); (9,16); (10,26); (11,27); (19,24);
   (20,25); (22,31); (23,39); (28,43); (29,44); (30,33); (34,38); (35,47); (36,48); (37,45);
   (42,50); (46,52); (1,4); (3,9); (10,17); (11,18); (12,19); (14,30); (16,20); (21,26); (24,28);
   (25,40); (27,34); (29,32); (33,37); (35,43); (36,44); (38,42); (45,51); (50,53); (1,2); (4,8);
   (5,9); (13,20); (14,21); (15,19); (22,27); (23,24); (25,29); (26,30); (28,39); (31,34); (32,40);
   (33,41); (38,46); (45,49); (50,52); (53,54); (3,4); (12,15); (13,16); (14,23); (17,19); (18,25);
   (20,22); (21,26); (24,28); (27,31); (29,32); (30,35); (33,39); (34,40); (36,38); (37,41);
   (42,46); (51,52); (4,8); (6,12); (7,13); (10,15); (11,16); (14,17); (18,20); (19,23); (21,24);
   (22,25); (26,28); (27,29); (30,33); (31,32); (34,36); (35,39); (37,43); (38,40); (41,47);
   (42,44); (46,48); (50,51); (5,8); (7,10); (9,12); (11,14); (13,15); (16,17); (18,19); (20,21);
   (22,23); (24,25); (26,27); (28,29); (30,31); (32,35); (33,34); (36,39); (37,38); (40,43);
   (41,42); (44,47); (45,46); (49,50); (6,8); (7,9); (10,12); (11,13); (14,15); (16,18); (17,19);
   (20,22); (21,23); (24,26); (25,27); (28,30); (29,31); (32,33); (34,35); (36,37); (38,39);
   (40,41); (42,43); (44,45); (46,47); (48,49); (5,6); (7,8); (9,10); (11,12); (13,14); (15,16);
   (17,18); (19,20); (21,22); (23,24); (25,26); (27,28); (29,30); (31,32); (33,34); (35,36);
   (37,38); (39,40); (41,42); (43,44); (45,46); (47,48); (49,50)].
(** detail/sorting_network/sort55.h, index_pairs(). *)
Definition pairs55 : list (N * N) :=
  [(1,12); (2,13); (3,14); (4,8); (5,6); (7,11); (9,10); (15,18); (16,37); (17,36); (19,38); (20,32);
   (21,22); (23,35); (24,26); (25,27); (28,30); (29,31); (33,34); (39,42); (40,53); (41,52);
   (43,54); (44,48); (45,46); (47,51); (49,50); (0,5); (1,7); (2,9); (3,4); (8,14); (10,13);
   (11,12); (15,33); (16,21); (17,23); (18,34); (19,20); (22,37); (24,28); (25,29); (26,30);
   (27,31); (32,38); (35,36); (39,49); (40,45); (41,47); (42,50); (43,44); (46,53); (48,54);
   (51,52); (0,1); (2,3); (4,5); (6,8); (7,9); (10,11); (13,14); (15,19); (16,17); (18,35); (20,21);
   (22,32); (23,33); (24,25); (26,27); (28,29); (30,31); (34,38); (36,37); (39,43); (40,41);
   (42,51); (44,45); (46,48); (47,49); (50,54); (52,53); (0,2); (1,3); (4,10); (5,11); (6,7); (8,9);
   (12,13); (15,16); (17,19); (18,20); (21,35); (22,23); (26,28); (27,29); (32,33); (34,36);
   (37,38); (39,40); (41,43); (42,44); (45,51); (46,47); (48,49); (50,52); (53,54); (0,24); (1,2);
   (3,12); (4,6); (5,7); (8,10); (9,11); (13,14); (15,39); (16,17); (18,22); (19,34); (20,32);
   (21,23); (25,28); (27,30); (31,54); (33,35); (36,37); (40,41); (42,46); (43,50); (44,48);
   (45,47); (49,51); (52,53); (0,15); (1,4); (2,6); (5,8); (7,10); (9,13); (11,14); (16,18);
   (17,22); (20,21); (23,32); (24,39); (25,26); (27,28); (29,30); (31,38); (33,36); (35,37);
   (40,42); (41,46); (44,45); (47,48); (49,52); (51,53); (1,16); (2,4); (3,6); (9,12); (11,13);
   (14,30); (15,24); (17,18); (19,22); (25,40); (33,34); (35,36); (37,53); (38,54); (41,42);
   (43,46); (49,50); (51,52); (1,25); (2,26); (3,5); (6,8); (7,9); (10,12); (13,36); (14,37);
   (16,40); (17,41); (19,20); (21,22); (23,33); (29,52); (30,53); (32,34); (43,44); (45,46);
   (47,49); (48,50); (2,17); (3,4); (5,6); (7,8); (9,10); (11,12); (13,29); (16,25); (18,19);
   (20,21); (22,23); (26,41); (30,37); (32,33); (34,35); (36,52); (42,43); (44,45); (46,47);
   (48,49); (50,51); (2,15); (3,27); (4,43); (5,44); (6,7); (8,9); (10,49); (11,50); (12,35);
   (13,25); (17,26); (18,42); (21,22); (23,32); (28,51); (29,36); (30,41); (45,46); (47,48);
   (52,54); (3,18); (4,19); (5,20); (6,21); (7,31); (8,23); (9,40); (12,28); (14,45); (22,46);
   (27,42); (32,48); (33,49); (34,50); (35,51); (39,47); (5,13); (6,14); (7,22); (8,39); (9,32);
   (10,33); (11,34); (12,24); (18,27); (19,43); (20,44); (21,45); (23,47); (28,35); (31,46);
   (38,42); (40,48); (41,49); (4,12); (6,17); (7,18); (8,15); (9,16); (10,26); (11,27); (19,24);
   (20,25); (22,31); (23,39); (28,43); (29,44); (30,33); (34,38); (35,47); (36,48); (37,45);
   (42,50); (46,52); (1,4); (3,9); (10,17); (11,18); (12,19); (14,30); (16,20); (21,26); (24,28);
   (25,40); (27,34); (29,32); (33,37); (35,43); (36,44); (38,42); (45,51); (50,53); (1,2); (4,8);
   (5,9); (13,20); (14,21); (15,19); (22,27); (23,24); (25,29); (26,30); (28,39); (31,34); (32,40);
   (33,41); (38,46); (45,49); (50,52); (53,54); (3,4); (12,15); (13,16); (14,23); (17,19); (18,25);
   (20,22); (21,26); (24,28); (27,31); (29,32); (30,35); (33,39); (34,40); (36,38); (37,41);
   (42,46); (51,52); (4,8); (6,12); (7,13); (10,15); (11,16); (14,17); (18,20); (19,23); (21,24);
   (22,25); (26,28); (27,29); (30,33); (31,32); (34,36); (35,39); (37,43); (38,40); (41,47);
   (42,44); (46,48); (50,51); (5,8); (7,10); (9,12); (11,14); (13,15); (16,17); (18,19); (20,21);
   (22,23); (24,25); (26,27); (28,29); (30,31); (32,35); (33,34); (36,39); (37,38); (40,43);
   (41,42); (44,47); (45,46); (49,50); (6,8); (7,9); (10,12); (11,13); (14,15); (16,18); (17,19);
   (20,22); (21,23); (24,26); (25,27); (28,30); (29,31); (32,33); (34,35); (36,37); (38,39);
   (40,41); (42,43); (44,45); (46,47); (48,49); (5,6); (7,8); (9,10); (11,12); (13,14); (15,16);
   (17,18); (19,20); (21,22); (23,24); (25,26); (27,28); (29,30); (31,32); (33,34); (35,36);
   (37,38); (39,40); (41,42); (43,44); (45,46); (47,48); (49,50)].

(** detail/sorting_network/sort56.h, operator(). *)
Definition swaps56 : list (N * N) :=
  [(0,13); (1,12); (2,15); (3,14); (4,8); (5,6); (7,11); (9,10); (16,37); (17,36); (18,39); (19,38);
   (20,32); (21,22); (23,35); (24,26); (25,27); (28,30); (29,31); (33,34); (40,53); (41,52);
   (42,55); (43,54); (44,48); (45,46); (47,51); (49,50); (0,5); (1,7); (2,9); (3,4); (6,13); (8,14);
   (10,15); (11,12); (16,21); (17,23); (18,33); (19,20); (22,37); (24,28); (25,29); (26,30);
   (27,31); (32,38); (34,39); (35,36); (40,45); (41,47); (42,49); (43,44); (46,53); (48,54);
   (50,55); (51,52); (0,1); (2,3); (4,5); (6,8); (7,9); (10,11); (12,13); (14,15); (16,17); (18,19);
   (20,21); (22,32); (23,33); (24,25); (26,27); (28,29); (30,31); (34,35); (36,37); (38,39);
   (40,41); (42,43); (44,45); (46,48); (47,49); (50,51); (52,53); (54,55); (0,2); (1,3); (4,10);
   (5,11); (6,7); (8,9); (12,14); (13,15); (16,18); (17,19); (20,34); (21,35); (22,23); (26,28);
   (27,29); (32,33); (36,38); (37,39); (40,42); (41,43); (44,50); (45,51); (46,47); (48,49);
   (52,54); (53,55); (0,24); (1,2); (3,12); (4,6); (5,7); (8,10); (9,11); (13,14); (15,39); (16,40);
   (17,18); (19,36); (20,22); (21,23); (25,28); (27,30); (31,55); (32,34); (33,35); (37,38);
   (41,42); (43,52); (44,46); (45,47); (48,50); (49,51); (53,54); (0,16); (1,4); (2,6); (5,8);
   (7,10); (9,13); (11,14); (15,31); (17,20); (18,22); (21,32); (23,34); (24,40); (25,26); (27,28);
   (29,30); (33,37); (35,38); (39,55); (41,44); (42,46); (45,48); (47,50); (49,53); (51,54); (1,17);
   (2,4); (3,6); (9,12); (11,13); (14,30); (16,24); (18,20); (19,22); (25,41); (31,39); (33,36);
   (35,37); (38,54); (42,44); (43,46); (49,52); (51,53); (1,25); (2,26); (3,5); (6,8); (7,9);
   (10,12); (13,37); (14,38); (17,41); (18,42); (19,21); (22,32); (23,33); (29,53); (30,54);
   (34,36); (43,45); (46,48); (47,49); (50,52); (2,18); (3,4); (5,6); (7,8); (9,10); (11,12);
   (13,29); (17,25); (19,20); (21,22); (23,32); (26,42); (30,38); (33,34); (35,36); (37,53);
   (43,44); (45,46); (47,48); (49,50); (51,52); (2,16); (3,27); (4,44); (5,45); (6,7); (8,9);
   (10,50); (11,51); (12,36); (13,25); (18,26); (19,43); (22,23); (28,52); (29,37); (30,42);
   (32,33); (39,53); (46,47); (48,49); (3,19); (4,20); (5,21); (6,22); (7,15); (8,32); (9,41);
   (12,28); (14,46); (23,47); (27,43); (33,49); (34,50); (35,51); (36,52); (40,48); (5,13); (6,14);
   (7,23); (8,40); (9,33); (10,34); (11,35); (12,24); (15,47); (19,27); (20,44); (21,45); (22,46);
   (28,36); (31,43); (32,48); (41,49); (42,50); (4,12); (6,18); (7,19); (8,16); (9,17); (10,26);
   (11,27); (15,23); (20,24); (21,25); (28,44); (29,45); (30,34); (31,35); (32,40); (36,48);
   (37,49); (38,46); (39,47); (43,51); (1,4); (3,9); (10,18); (11,19); (12,20); (14,30); (17,21);
   (22,26); (24,28); (25,41); (27,31); (29,33); (34,38); (35,43); (36,44); (37,45); (46,52);
   (51,54); (1,2); (4,8); (5,9); (13,21); (14,22); (15,27); (16,20); (23,31); (24,32); (25,29);
   (26,30); (28,40); (33,41); (34,42); (35,39); (46,50); (47,51); (53,54); (3,4); (12,16); (13,17);
   (14,24); (15,21); (18,20); (19,25); (22,26); (23,27); (28,32); (29,33); (30,36); (31,41);
   (34,40); (35,37); (38,42); (39,43); (51,52); (4,8); (6,12); (7,13); (10,16); (11,17); (14,18);
   (15,19); (20,24); (21,25); (22,28); (23,29); (26,32); (27,33); (30,34); (31,35); (36,40);
   (37,41); (38,44); (39,45); (42,48); (43,49); (47,51); (5,8); (7,10); (9,12); (11,14); (13,16);
   (15,20); (17,18); (19,22); (21,24); (23,26); (25,28); (27,30); (29,32); (31,34); (33,36);
   (35,40); (37,38); (39,42); (41,44); (43,46); (45,48); (47,50); (6,8); (7,9); (10,12); (11,13);
   (14,16); (15,17); (18,20); (19,21); (22,24); (23,25); (26,28); (27,29); (30,32); (31,33);
   (34,36); (35,37); (38,40); (39,41); (42,44); (43,45); (46,48); (47,49); (5,6); (7,8); (9,10);
   (11,12); (13,14); (15,16); (17,18); (19,20); (21,22); (23,24); (25,26); (27,28); (29,30);
   (31,32); (33,34); (35,36); (37,38); (39,40); (41,42); (43,44); (45,46); (47,48); (49,50)].
(** detail/sorting_network/sort56.h, index_pairs(). *)
Definition pairs56 : list (N * N) :=
  [(0,13); (1,12); (2,15); (3,14); (4,8); (5,6); (7,11); (9,10); (16,37); (17,36); (18,39); (19,38);
   (20,32); (21,22); (23,35); (24,26); (25,27); (28,30); (29,31); (33,34); (40,53); (41,52);
   (42,55); (43,54); (44,48); (45,46); (47,51); (49,50); (0,5); (1,7); (2,9); (3,4); (6,13); (8,14);
   (10,15); (11,12); (16,21); (17,23); (18,33); (19,20); (22,37); (24,28); (25,29); (26,30);
   (27,31); (32,38); (34,39); (35,36); (40,45); (41,47); (42,49); (43,44); (46,53); (48,54);
   (50,55); (51,52); (0,1); (2,3); (4,5); (6,8); (7,9); (10,11); (12,13); (14,15); (16,17); (18,19);
   (20,21); (22,32); (23,33); (24,25); (26,27); (28,29); (30,31); (34,35); (36,37); (38,39);
   (40,41); (42,43); (44,45); (46,48); (47,49); (50,51); (52,53); (54,55); (0,2); (1,3); (4,10);
   (5,11); (6,7); (8,9); (12,14); (13,15); (16,18); (17,19); (20,34); (21,35); (22,23); (26,28);
   (27,29); (32,33); (36,38); (37,39); (40,42); (41,43); (44,50); (45,51); (46,47); (48,49);
   (52,54); (53,55); (0,24); (1,2); (3,12); (4,6); (5,7); (8,10); (9,11); (13,14); (15,39); (16,40);
   (17,18); (19,36); (20,22); (21,23); (25,28); (27,30); (31,55); (32,34); (33,35); (37,38);
   (41,42); (43,52); (44,46); (45,47); (48,50); (49,51); (53,54); (0,16); (1,4); (2,6); (5,8);
   (7,10); (9,13); (11,14); (15,31); (17,20); (18,22); (21,32); (23,34); (24,40); (25,26); (27,28);
   (29,30); (33,37); (35,38); (39,55); (41,44); (42,46); (45,48); (47,50); (49,53); (51,54); (1,17);
   (2,4); (3,6); (9,12); (11,13); (14,30); (16,24); (18,20); (19,22); (25,41); (31,39); (33,36);
   (35,37); (38,54); (42,44); (43,46); (49,52); (51,53); (1,25); (2,26); (3,5); (6,8); (7,9);
   (10,12); (13,37); (14,38); (17,41); (18,42); (19,21); (22,32); (23,33); (29,53); (30,54);
   (34,36); (43,45); (46,48); (47,49); (50,52); (2,18); (3,4); (5,6); (7,8); (9,10); (11,12);
   (13,29); (17,25); (19,20); (21,22); (23,32); (26,42); (30,38); (33,34); (35,36); (37,53);
   (43,44); (45,46); (47,48); (49,50); (51,52); (2,16); (3,27); (4,44); (5,45); (6,7); (8,9);
   (10,50); (11,51); (12,36); (13,25); (18,26); (19,43); (22,23); (28,52); (29,37); (30,42);
   (32,33); (39,53); (46,47); (48,49); (3,19); (4,20); (5,21); (6,22); (7,15); (8,32); (9,41);
   (12,28); (14,46); (23,47); (27,43); (33,49); (34,50); (35,51); (36,52); (40,48); (5,13); (6,14);
   (7,23); (8,40); (9,33); (10,34); (11,35); (12,24); (15,47); (19,27); (20,44); (21,45); (22,46);
   (28,36); (31,43); (32,48); (41,49); (42,50); (4,12); (6,18); (7,19); (8,16); (9,17); (10,26);
   (11,27); (15,23); (20,24); (21,25); (28,44); (29,45); (30,34); (31,35); (32,40); (36,48);
   (37,49); (38,46); (39,47); (43,51); (1,4); (3,9); (10,18); (11,19); (12,20); (14,30); (17,21);
   (22,26); (24,28); (25,41); (27,31); (29,33); (34,38); (35,43); (36,44); (37,45); (46,52);
   (51,54); (1,2); (4,8); (5,9); (13,21); (14,22); (15,27); (16,20); (23,31); (24,32); (25,29);
   (26,30); (28,40); (33,41); (34,42); (35,39); (46,50); (47,51); (53,54); (3,4); (12,16); (13,17);
   (14,24); (15,21); (18,20); (19,25); (22,26); (23,27); (28,32); (29,33); (30,36); (31,41);
   (34,40); (35,37); (38,42); (39,43); (51,52); (4,8); (6,12); (7,13); (10,16); (11,17); (14,18);
   (15,19); (20,24); (21,25); (22,28); (23,29); (26,32); (27,33); (30,34); (31,35); (36,40);
   (37,41); (38,44); (39,45); (42,48); (43,49); (47,51); (5,8); (7,10); (9,12); (11,14); (13,16);
   (15,20); (17,18); (19,22); (21,24); (23,26); (25,28); (27,30); (29,32); (31,34); (33,36);
   (35,40); (37,38); (39,42); (41,44); (43,46); (45,48); (47,50); (6,8); (7,9); (10,12); (11,13);
   (14,16); (15,17); (18,20); (19,21); (22,24); (23,25); (26,28); (27,29); (30,32); (31,33);
   (34,36); (35,37); (38,40); (39,41); (42,44); (43,45); (46,48); (47,49); (5,6); (7,8); (9,10);
   (11,12); (13,14); (15,16); (17,18); (19,20); (21,22); (23,24); (25,26); (27,28); (29,30);
   (31,32); (33,34); (35,36); (37,38); (39,40); (41,42); (43,44); (45,46); (47,48); (49,50)].

(** detail/sorting_network/sort57.h, operator(). *)
Definition swaps57 : list (N * N) :=
  [(0,8); (1,7); (2,6); (3,11); (4,10); (5,9); (12,24); (13,22); (14,21); (15,19); (17,23); (18,20);
   (25,38); (26,37); (27,40); (28,39); (29,33); (30,31); (32,36); (34,35); (41,54); (42,53);
   (43,56); (44,55); (45,49); (46,47); (48,52); (50,51); (0,1); (2,5); (3,4); (6,9); (7,8); (10,11);
   (13,18); (14,15); (16,23); (19,21); (20,22); (25,30); (26,32); (27,34); (28,29); (31,38);
   (33,39); (35,40); (36,37); (41,46); (42,48); (43,50); (44,45); (47,54); (49,55); (51,56);
   (52,53); (0,2); (1,6); (5,10); (9,11); (12,16); (13,14); (15,18); (19,20); (21,22); (23,24);
   (25,26); (27,28); (29,30); (31,33); (32,34); (35,36); (37,38); (39,40); (41,42); (43,44);
   (45,46); (47,49); (48,50); (51,52); (53,54); (55,56); (0,3); (1,2); (4,6); (5,7); (8,11); (9,10);
   (16,18); (17,21); (20,23); (22,24); (25,27); (26,28); (29,35); (30,36); (31,32); (33,34);
   (37,39); (38,40); (41,43); (42,44); (45,51); (46,52); (47,48); (49,50); (53,55); (54,56); (1,4);
   (3,5); (6,8); (7,10); (12,17); (15,20); (16,19); (18,23); (21,22); (26,27); (28,37); (29,31);
   (30,32); (33,35); (34,36); (38,39); (40,56); (42,43); (44,53); (45,47); (46,48); (49,51);
   (50,52); (54,55); (1,3); (2,5); (6,9); (8,10); (12,13); (14,17); (18,21); (19,20); (22,23);
   (26,29); (27,31); (30,33); (32,35); (34,38); (36,39); (42,45); (43,47); (46,49); (48,51);
   (50,54); (52,55); (1,26); (2,3); (4,5); (6,7); (8,9); (11,23); (12,41); (13,15); (14,16);
   (17,18); (21,22); (27,29); (28,31); (34,37); (36,38); (39,55); (43,45); (44,47); (50,53);
   (52,54); (2,27); (4,6); (5,7); (10,22); (12,25); (13,14); (15,16); (17,19); (18,20); (23,56);
   (28,30); (31,33); (32,34); (35,37); (38,54); (44,46); (47,49); (48,50); (51,53); (3,4); (5,6);
   (7,8); (13,42); (14,15); (16,17); (18,19); (20,21); (22,55); (28,29); (30,31); (32,33); (34,35);
   (36,37); (44,45); (46,47); (48,49); (50,51); (52,53); (0,29); (1,13); (3,28); (7,19); (8,24);
   (9,21); (14,43); (15,16); (17,18); (26,42); (30,46); (31,32); (33,34); (35,51); (36,52); (37,53);
   (47,48); (49,50); (2,14); (4,33); (5,17); (6,18); (8,37); (10,51); (11,52); (13,26); (15,44);
   (16,45); (19,40); (20,49); (21,54); (24,53); (27,43); (31,47); (32,48); (34,50); (0,16); (3,15);
   (4,41); (5,30); (6,31); (7,32); (9,50); (10,35); (11,36); (14,27); (17,38); (18,39); (20,25);
   (23,40); (24,37); (28,44); (29,45); (33,49); (0,12); (4,20); (5,13); (6,14); (8,29); (9,34);
   (10,27); (15,28); (21,38); (22,39); (24,45); (30,46); (31,47); (32,48); (33,41); (35,43);
   (36,44); (37,49); (40,52); (4,12); (7,15); (9,26); (10,14); (11,28); (16,29); (17,30); (18,31);
   (19,32); (21,46); (22,47); (23,48); (25,33); (27,35); (34,42); (37,45); (38,50); (39,51);
   (40,44); (52,55); (1,4); (8,16); (9,13); (11,15); (18,27); (20,25); (21,30); (22,31); (23,32);
   (24,29); (26,34); (28,36); (33,41); (38,42); (39,43); (44,48); (51,53); (3,9); (8,20); (14,18);
   (16,25); (17,26); (19,28); (21,34); (22,35); (23,36); (24,33); (29,41); (30,38); (31,39);
   (32,40); (42,46); (43,47); (48,54); (53,55); (8,12); (13,17); (15,19); (16,20); (21,26); (22,27);
   (23,28); (24,25); (29,33); (30,34); (31,35); (32,36); (37,41); (38,42); (39,43); (40,44);
   (47,49); (48,51); (53,54); (55,56); (2,8); (6,12); (7,13); (10,16); (11,17); (14,20); (15,21);
   (18,24); (19,26); (22,25); (23,30); (27,29); (28,34); (31,33); (32,38); (35,37); (36,42);
   (39,41); (40,46); (43,45); (44,50); (52,53); (2,4); (3,8); (5,6); (7,10); (9,12); (11,14);
   (13,16); (15,20); (17,18); (19,21); (22,24); (23,27); (25,26); (28,31); (29,30); (32,34);
   (33,35); (36,37); (38,39); (40,41); (42,43); (44,47); (45,46); (49,50); (53,54); (3,5); (6,8);
   (7,9); (10,12); (11,13); (14,16); (15,17); (18,20); (19,22); (21,24); (23,25); (26,27); (28,29);
   (30,31); (32,33); (34,35); (36,38); (37,39); (40,42); (41,43); (44,45); (46,47); (48,49);
   (50,51); (3,4); (5,6); (7,8); (9,10); (11,12); (13,14); (15,16); (17,18); (19,20); (21,22);
   (23,24); (25,26); (27,28); (29,30); (31,32); (33,34); (35,36); (37,38); (39,40); (41,42);
   (43,44); (45,46); (47,48); (49,50); (51,52)].
(** detail/sorting_network/sort57.h, index_pairs(). *)
Definition pairs57 : list (N * N) :=
  [(0,8); (1,7); (2,6); (3,11); (4,10); (5,9); (12,24); (13,22); (14,21); (15,19); (17,23); (18,20);
   (25,38); (26,37); (27,40); (28,39); (29,33); (30,31); (32,36); (34,35); (41,54); (42,53);
   (43,56); (44,55); (45,49); (46,47); (48,52); (50,51); (0,1); (2,5); (3,4); (6,9); (7,8); (10,11);
   (13,18); (14,15); (16,23); (19,21); (20,22); (25,30); (26,32); (27,34); (28,29); (31,38);
   (33,39); (35,40); (36,37); (41,46); (42,48); (43,50); (44,45); (47,54); (49,55); (51,56);
   (52,53); (0,2); (1,6); (5,10); (9,11); (12,16); (13,14); (15,18); (19,20); (21,22); (23,24);
   (25,26); (27,28); (29,30); (31,33); (32,34); (35,36); (37,38); (39,40); (41,42); (43,44);
   (45,46); (47,49); (48,50); (51,52); (53,54); (55,56); (0,3); (1,2); (4,6); (5,7); (8,11); (9,10);
   (16,18); (17,21); (20,23); (22,24); (25,27); (26,28); (29,35); (30,36); (31,32); (33,34);
   (37,39); (38,40); (41,43); (42,44); (45,51); (46,52); (47,48); (49,50); (53,55); (54,56); (1,4);
   (3,5); (6,8); (7,10); (12,17); (15,20); (16,19); (18,23); (21,22); (26,27); (28,37); (29,31);
   (30,32); (33,35); (34,36); (38,39); (40,56); (42,43); (44,53); (45,47); (46,48); (49,51);
   (50,52); (54,55); (1,3); (2,5); (6,9); (8,10); (12,13); (14,17); (18,21); (19,20); (22,23);
   (26,29); (27,31); (30,33); (32,35); (34,38); (36,39); (42,45); (43,47); (46,49); (48,51);
   (50,54); (52,55); (1,26); (2,3); (4,5); (6,7); (8,9); (11,23); (12,41); (13,15); (14,16);
   (17,18); (21,22); (27,29); (28,31); (34,37); (36,38); (39,55); (43,45); (44,47); (50,53);
   (52,54); (2,27); (4,6); (5,7); (10,22); (12,25); (13,14); (15,16); (17,19); (18,20); (23,56);
   (28,30); (31,33); (32,34); (35,37); (38,54); (44,46); (47,49); (48,50); (51,53); (3,4); (5,6);
   (7,8); (13,42); (14,15); (16,17); (18,19); (20,21); (22,55); (28,29); (30,31); (32,33); (34,35);
   (36,37); (44,45); (46,47); (48,49); (50,51); (52,53); (0,29); (1,13); (3,28); (7,19); (8,24);
   (9,21); (14,43); (15,16); (17,18); (26,42); (30,46); (31,32); (33,34); (35,51); (36,52); (37,53);
   (47,48); (49,50); (2,14); (4,33); (5,17); (6,18); (8,37); (10,51); (11,52); (13,26); (15,44);
   (16,45); (19,40); (20,49); (21,54); (24,53); (27,43); (31,47); (32,48); (34,50); (0,16); (3,15);
   (4,41); (5,30); (6,31); (7,32); (9,50); (10,35); (11,36); (14,27); (17,38); (18,39); (20,25);
   (23,40); (24,37); (28,44); (29,45); (33,49); (0,12); (4,20); (5,13); (6,14); (8,29); (9,34);
   (10,27); (15,28); (21,38); (22,39); (24,45); (30,46); (31,47); (32,48); (33,41); (35,43);
   (36,44); (37,49); (40,52); (4,12); (7,15); (9,26); (10,14); (11,28); (16,29); (17,30); (18,31);
   (19,32); (21,46); (22,47); (23,48); (25,33); (27,35); (34,42); (37,45); (38,50); (39,51);
   (40,44); (52,55); (1,4); (8,16); (9,13); (11,15); (18,27); (20,25); (21,30); (22,31); (23,32);
   (24,29); (26,34); (28,36); (33,41); (38,42); (39,43); (44,48); (51,53); (3,9); (8,20); (14,18);
   (16,25); (17,26); (19,28); (21,34); (22,35); (23,36); (24,33); (29,41); (30,38); (31,39);
   (32,40); (42,46); (43,47); (48,54); (53,55); (8,12); (13,17); (15,19); (16,20); (21,26); (22,27);
   (23,28); (24,25); (29,33); (30,34); (31,35); (32,36); (37,41); (38,42); (39,43); (40,44);
   (47,49); (48,51); (53,54); (55,56); (2,8); (6,12); (7,13); (10,16); (11,17); (14,20); (15,21);
   (18,24); (19,26); (22,25); (23,30); (27,29); (28,34); (31,33); (32,38); (35,37); (36,42);
   (39,41); (40,46); (43,45); (44,50); (52,53); (2,4); (3,8); (5,6); (7,10); (9,12); (11,14);
   (13,16); (15,20); (17,18); (19,21); (22,24); (23,27); (25,26); (28,31); (29,30); (32,34);
   (33,35); (36,37); (38,39); (40,41); (42,43); (44,47); (45,46); (49,50); (53,54); (3,5); (6,8);
   (7,9); (10,12); (11,13); (14,16); (15,17); (18,20); (19,22); (21,24); (23,25); (26,27); (28,29);
   (30,31); (32,33); (34,35); (36,38); (37,39); (40,42); (41,43); (44,45); (46,47); (48,49);
   (50,51); (3,4); (5,6); (7,8); (9,10); (11,12); (13,14); (15,16); (17,18); (19,20); (21,22);
   (23,24); (25,26); (27,28); (29,30); (31,32); (33,34); (35,36); (37,38); (39,40); (41,42);
   (43,44); (45,46); (47,48); (49,50); (51,52)].

(** detail/sorting_network/sort58.h, operator(). *)
Definition swaps58 : list (N * N) :=
  [(0,8); (1,9); (2,7); (3,5); (4,6); (10,23); (11,22); (12,25); (13,24); (14,18); (15,16); (17,21);
   (19,20); (26,39); (27,38); (28,41); (29,40); (30,34); (31,32); (33,37); (35,36); (42,55);
   (43,54); (44,57); (45,56); (46,50); (47,48); (49,53); (51,52); (0,2); (1,4); (5,8); (7,9);
   (10,15); (11,17); (12,19); (13,14); (16,23); (18,24); (20,25); (21,22); (26,31); (27,33);
   (28,35); (29,30); (32,39); (34,40); (36,41); (37,38); (42,47); (43,49); (44,51); (45,46);
   (48,55); (50,56); (52,57); (53,54); (0,3); (2,4); (5,7); (6,9); (10,11); (12,13); (14,15);
   (16,18); (17,19); (20,21); (22,23); (24,25); (26,27); (28,29); (30,31); (32,34); (33,35);
   (36,37); (38,39); (40,41); (42,43); (44,45); (46,47); (48,50); (49,51); (52,53); (54,55);
   (56,57); (0,1); (3,6); (8,9); (10,12); (11,13); (14,20); (15,21); (16,17); (18,19); (22,24);
   (23,25); (26,28); (27,29); (30,36); (31,37); (32,33); (34,35); (38,40); (39,41); (42,44);
   (43,45); (46,52); (47,53); (48,49); (50,51); (54,56); (55,57); (1,5); (2,3); (4,8); (6,7);
   (10,42); (11,12); (13,22); (14,16); (15,17); (18,20); (19,21); (23,24); (25,41); (27,28);
   (29,38); (30,32); (31,33); (34,36); (35,37); (39,40); (43,44); (45,54); (46,48); (47,49);
   (50,52); (51,53); (55,56); (1,2); (3,5); (4,6); (7,8); (10,26); (11,14); (12,16); (15,18);
   (17,20); (19,23); (21,24); (27,30); (28,32); (31,34); (33,36); (35,39); (37,40); (43,46);
   (44,48); (47,50); (49,52); (51,55); (53,56); (2,3); (4,5); (6,7); (11,43); (12,14); (13,16);
   (19,22); (21,23); (24,40); (28,30); (29,32); (35,38); (37,39); (44,46); (45,48); (51,54);
   (53,55); (2,12); (3,4); (5,6); (7,57); (9,23); (11,27); (13,15); (16,18); (17,19); (20,22);
   (28,44); (29,31); (32,34); (33,35); (36,38); (39,55); (45,47); (48,50); (49,51); (52,54); (2,28);
   (6,56); (7,25); (9,39); (13,14); (15,16); (17,18); (19,20); (21,22); (23,55); (29,30); (31,32);
   (33,34); (35,36); (37,38); (41,57); (45,46); (47,48); (49,50); (51,52); (53,54); (0,30); (1,31);
   (3,13); (6,24); (8,22); (12,20); (14,46); (15,47); (16,17); (18,19); (23,39); (25,41); (29,45);
   (32,33); (34,35); (36,52); (37,53); (38,54); (40,56); (48,49); (50,51); (55,57); (0,14); (1,15);
   (3,29); (4,34); (5,35); (6,16); (7,17); (8,38); (12,44); (13,21); (18,50); (19,51); (20,52);
   (22,54); (24,40); (30,46); (31,47); (32,48); (33,49); (0,10); (1,11); (4,42); (5,43); (6,32);
   (7,33); (8,30); (9,31); (12,28); (13,45); (16,48); (17,49); (18,26); (19,27); (20,36); (21,53);
   (22,38); (23,47); (34,50); (35,51); (40,52); (4,18); (5,19); (6,12); (13,29); (14,30); (15,31);
   (16,32); (17,33); (20,28); (21,37); (22,46); (24,48); (25,49); (34,42); (35,43); (36,44);
   (38,50); (39,51); (41,53); (52,54); (4,10); (5,11); (7,13); (8,14); (9,15); (12,20); (21,29);
   (22,30); (23,31); (24,32); (25,33); (26,34); (27,35); (28,36); (37,45); (38,46); (39,47);
   (40,48); (41,49); (53,56); (1,4); (13,21); (16,28); (18,26); (19,27); (24,36); (29,37); (32,44);
   (33,45); (34,42); (35,43); (48,50); (49,51); (8,18); (9,19); (14,26); (15,27); (16,20); (17,29);
   (22,34); (23,35); (24,28); (25,37); (30,42); (31,43); (32,36); (40,44); (41,45); (49,52);
   (51,54); (8,10); (9,11); (14,18); (15,19); (17,21); (22,26); (23,27); (25,29); (30,34); (31,35);
   (33,37); (38,42); (39,43); (44,46); (45,47); (54,55); (2,8); (3,9); (6,10); (7,11); (12,14);
   (13,15); (16,18); (17,19); (20,22); (21,23); (24,26); (25,27); (28,30); (29,31); (32,34);
   (33,35); (36,38); (37,39); (40,42); (41,43); (45,46); (47,50); (53,54); (55,56); (2,4); (3,8);
   (5,6); (7,12); (9,10); (11,14); (13,16); (15,20); (17,18); (19,24); (21,22); (23,28); (25,26);
   (27,29); (30,32); (31,34); (33,36); (35,38); (37,40); (39,42); (41,44); (43,48); (49,50);
   (51,53); (54,55); (3,5); (6,8); (7,9); (10,12); (11,13); (14,16); (15,17); (18,20); (19,21);
   (22,24); (23,25); (26,28); (27,30); (29,32); (31,33); (34,36); (35,37); (38,40); (39,41);
   (42,44); (43,45); (46,48); (47,49); (50,52); (3,4); (5,6); (7,8); (9,10); (11,12); (13,14);
   (15,16); (17,18); (19,20); (21,22); (23,24); (25,26); (27,28); (29,30); (31,32); (33,34);
   (35,36); (37,38); (39,40); (41,42); (43,44); (45,46); (47,48); (51,52)].
(** detail/sorting_network/sort58.h, index_pairs(). *)
Definition pairs58 : list (N * N) :=
  [(0,8); (1,9); (2,7); (3,5); (4,6); (10,23); (11,22); (12,25); (13,24); (14,18); (15,16); (17,21);
   (19,20); (26,39); (27,38); (28,41); (29,40); (30,34); (31,32); (33,37); (35,36); (42,55);
   (43,54); (44,57); (45,56); (46,50); (47,48); (49,53); (51,52); (0,2); (1,4); (5,8); (7,9);
   (10,15); (11,17); (12,19); (13,14); (16,23); (18,24); (20,25); (21,22); (26,31); (27,33);
   (28,35); (29,30); (32,39); (34,40); (36,41); (37,38); (42,47); (43,49); (44,51); (45,46);
   (48,55); (50,56); (52,57); (53,54); (0,3); (2,4); (5,7); (6,9); (10,11); (12,13); (14,15);
   (16,18); (17,19); (20,21); (22,23); (24,25); (26,27); (28,29); (30,31); (32,34); (33,35);
   (36,37); (38,39); (40,41); (42,43); (44,45); (46,47); (48,50); (49,51); (52,53); (54,55);
   (56,57); (0,1); (3,6); (8,9); (10,12); (11,13); (14,20); (15,21); (16,17); (18,19); (22,24);
   (23,25); (26,28); (27,29); (30,36); (31,37); (32,33); (34,35); (38,40); (39,41); (42,44);
   (43,45); (46,52); (47,53); (48,49); (50,51); (54,56); (55,57); (1,5); (2,3); (4,8); (6,7);
   (10,42); (11,12); (13,22); (14,16); (15,17); (18,20); (19,21); (23,24); (25,41); (27,28);
   (29,38); (30,32); (31,33); (34,36); (35,37); (39,40); (43,44); (45,54); (46,48); (47,49);
   (50,52); (51,53); (55,56); (1,2); (3,5); (4,6); (7,8); (10,26); (11,14); (12,16); (15,18);
   (17,20); (19,23); (21,24); (27,30); (28,32); (31,34); (33,36); (35,39); (37,40); (43,46);
   (44,48); (47,50); (49,52); (51,55); (53,56); (2,3); (4,5); (6,7); (11,43); (12,14); (13,16);
   (19,22); (21,23); (24,40); (28,30); (29,32); (35,38); (37,39); (44,46); (45,48); (51,54);
   (53,55); (2,12); (3,4); (5,6); (7,57); (9,23); (11,27); (13,15); (16,18); (17,19); (20,22);
   (28,44); (29,31); (32,34); (33,35); (36,38); (39,55); (45,47); (48,50); (49,51); (52,54); (2,28);
   (6,56); (7,25); (9,39); (13,14); (15,16); (17,18); (19,20); (21,22); (23,55); (29,30); (31,32);
   (33,34); (35,36); (37,38); (41,57); (45,46); (47,48); (49,50); (51,52); (53,54); (0,30); (1,31);
   (3,13); (6,24); (8,22); (12,20); (14,46); (15,47); (16,17); (18,19); (23,39); (25,41); (29,45);
   (32,33); (34,35); (36,52); (37,53); (38,54); (40,56); (48,49); (50,51); (55,57); (0,14); (1,15);
   (3,29); (4,34); (5,35); (6,16); (7,17); (8,38); (12,44); (13,21); (18,50); (19,51); (20,52);
   (22,54); (24,40); (30,46); (31,47); (32,48); (33,49); (0,10); (1,11); (4,42); (5,43); (6,32);
   (7,33); (8,30); (9,31); (12,28); (13,45); (16,48); (17,49); (18,26); (19,27); (20,36); (21,53);
   (22,38); (23,47); (34,50); (35,51); (40,52); (4,18); (5,19); (6,12); (13,29); (14,30); (15,31);
   (16,32); (17,33); (20,28); (21,37); (22,46); (24,48); (25,49); (34,42); (35,43); (36,44);
   (38,50); (39,51); (41,53); (52,54); (4,10); (5,11); (7,13); (8,14); (9,15); (12,20); (21,29);
   (22,30); (23,31); (24,32); (25,33); (26,34); (27,35); (28,36); (37,45); (38,46); (39,47);
   (40,48); (41,49); (53,56); (1,4); (13,21); (16,28); (18,26); (19,27); (24,36); (29,37); (32,44);
   (33,45); (34,42); (35,43); (48,50); (49,51); (8,18); (9,19); (14,26); (15,27); (16,20); (17,29);
   (22,34); (23,35); (24,28); (25,37); (30,42); (31,43); (32,36); (40,44); (41,45); (49,52);
   (51,54); (8,10); (9,11); (14,18); (15,19); (17,21); (22,26); (23,27); (25,29); (30,34); (31,35);
   (33,37); (38,42); (39,43); (44,46); (45,47); (54,55); (2,8); (3,9); (6,10); (7,11); (12,14);
   (13,15); (16,18); (17,19); (20,22); (21,23); (24,26); (25,27); (28,30); (29,31); (32,34);
   (33,35); (36,38); (37,39); (40,42); (41,43); (45,46); (47,50); (53,54); (55,56); (2,4); (3,8);
   (5,6); (7,12); (9,10); (11,14); (13,16); (15,20); (17,18); (19,24); (21,22); (23,28); (25,26);
   (27,29); (30,32); (31,34); (33,36); (35,38); (37,40); (39,42); (41,44); (43,48); (49,50);
   (51,53); (54,55); (3,5); (6,8); (7,9); (10,12); (11,13); (14,16); (15,17); (18,20); (19,21);
   (22,24); (23,25); (26,28); (27,30); (29,32); (31,33); (34,36); (35,37); (38,40); (39,41);
   (42,44); (43,45); (46,48); (47,49); (50,52); (3,4); (5,6); (7,8); (9,10); (11,12); (13,14);
   (15,16); (17,18); (19,20); (21,22); (23,24); (25,26); (27,28); (29,30); (31,32); (33,34);
   (35,36); (37,38); (39,40); (41,42); (43,44); (45,46); (47,48); (51,52)].

(** detail/sorting_network/sort59.h, operator(). *)
Definition swaps59 : list (N * N) :=
  [(0,9); (1,6); (2,4); (3,7); (5,8); (11,24); (12,23); (13,26); (14,25); (15,19); (16,17); (18,22);
   (20,21); (27,40); (28,39); (29,42); (30,41); (31,35); (32,33); (34,38); (36,37); (43,56);
   (44,55); (45,58); (46,57); (47,51); (48,49); (50,54); (52,53); (0,1); (3,5); (4,10); (6,9);
   (7,8); (11,16); (12,18); (13,20); (14,15); (17,24); (19,25); (21,26); (22,23); (27,32); (28,34);
   (29,36); (30,31); (33,40); (35,41); (37,42); (38,39); (43,48); (44,50); (45,52); (46,47);
   (49,56); (51,57); (53,58); (54,55); (1,3); (2,5); (4,7); (8,10); (11,12); (13,14); (15,16);
   (17,19); (18,20); (21,22); (23,24); (25,26); (27,28); (29,30); (31,32); (33,35); (34,36);
   (37,38); (39,40); (41,42); (43,44); (45,46); (47,48); (49,51); (50,52); (53,54); (55,56);
   (57,58); (0,4); (1,2); (3,7); (5,9); (6,8); (11,13); (12,14); (15,21); (16,22); (17,18); (19,20);
   (23,25); (24,26); (27,29); (28,30); (31,37); (32,38); (33,34); (35,36); (39,41); (40,42);
   (43,45); (44,46); (47,53); (48,54); (49,50); (51,52); (55,57); (56,58); (0,1); (2,6); (4,5);
   (7,8); (9,10); (11,43); (12,13); (14,23); (15,17); (16,18); (19,21); (20,22); (24,25); (26,42);
   (28,29); (30,39); (31,33); (32,34); (35,37); (36,38); (40,41); (44,45); (46,55); (47,49);
   (48,50); (51,53); (52,54); (56,57); (2,4); (3,6); (5,7); (8,9); (11,27); (12,15); (13,17);
   (16,19); (18,21); (20,24); (22,25); (28,31); (29,33); (32,35); (34,37); (36,40); (38,41);
   (44,47); (45,49); (48,51); (50,53); (52,56); (54,57); (1,2); (3,4); (5,6); (7,8); (10,25);
   (12,44); (13,15); (14,17); (20,23); (22,24); (29,31); (30,33); (36,39); (38,40); (41,57);
   (45,47); (46,49); (52,55); (54,56); (2,3); (4,5); (6,7); (9,24); (10,41); (12,28); (13,45);
   (14,16); (17,19); (18,20); (21,23); (25,57); (30,32); (33,35); (34,36); (37,39); (40,56);
   (46,48); (49,51); (50,52); (53,55); (7,58); (9,40); (13,29); (14,15); (16,17); (18,19); (20,21);
   (22,23); (24,56); (25,41); (30,31); (32,33); (34,35); (36,37); (38,39); (46,47); (48,49);
   (50,51); (52,53); (54,55); (0,31); (1,32); (3,14); (6,37); (7,26); (8,23); (15,47); (16,48);
   (17,18); (19,20); (21,53); (24,40); (30,46); (33,34); (35,36); (38,54); (39,55); (42,58);
   (49,50); (51,52); (0,15); (1,16); (2,33); (3,30); (4,35); (5,36); (6,45); (7,18); (8,39);
   (14,22); (17,49); (19,51); (20,52); (21,29); (23,55); (26,42); (31,47); (32,48); (34,50);
   (37,53); (57,58); (0,11); (1,12); (2,17); (4,43); (5,44); (6,21); (7,34); (8,31); (9,32);
   (14,46); (18,50); (19,27); (20,28); (22,54); (23,39); (24,48); (33,49); (35,51); (36,52);
   (37,45); (41,53); (2,13); (4,19); (5,20); (10,33); (14,30); (15,31); (16,32); (18,34); (22,38);
   (23,47); (25,49); (26,50); (29,37); (35,43); (36,44); (39,51); (40,52); (42,54); (4,11); (5,12);
   (6,13); (7,14); (8,15); (9,16); (17,33); (21,29); (22,30); (23,31); (24,32); (26,34); (27,35);
   (28,36); (37,45); (38,46); (39,47); (40,48); (41,49); (42,50); (54,56); (1,4); (10,17); (14,22);
   (19,27); (20,28); (25,33); (30,38); (34,46); (35,43); (36,44); (49,55); (50,53); (56,57); (8,19);
   (9,20); (10,21); (15,27); (16,28); (17,29); (18,30); (23,35); (24,36); (25,37); (26,38); (31,43);
   (32,44); (33,45); (42,46); (50,52); (54,55); (8,11); (9,12); (10,13); (15,19); (16,20); (17,21);
   (18,22); (23,27); (24,28); (25,29); (26,30); (31,35); (32,36); (33,37); (34,38); (39,43);
   (40,44); (41,45); (46,48); (52,54); (53,55); (2,8); (3,9); (6,11); (7,12); (10,15); (13,19);
   (14,16); (17,23); (18,20); (21,27); (22,24); (25,31); (26,28); (29,35); (30,32); (33,39);
   (34,36); (37,43); (38,40); (41,47); (42,44); (45,51); (48,50); (53,54); (55,56); (2,4); (3,5);
   (6,8); (7,9); (10,11); (12,13); (14,15); (16,19); (17,18); (20,22); (21,23); (24,27); (25,26);
   (28,31); (29,30); (32,35); (33,34); (36,39); (37,38); (40,42); (41,43); (44,45); (46,47);
   (49,51); (3,6); (5,8); (7,10); (9,11); (12,14); (13,15); (16,17); (18,19); (20,21); (22,23);
   (24,25); (26,27); (28,29); (30,31); (32,33); (34,35); (36,37); (38,39); (40,41); (42,43);
   (44,46); (45,47); (48,49); (50,51); (3,4); (5,6); (7,8); (9,10); (11,12); (13,14); (15,16);
   (17,18); (19,20); (21,22); (23,24); (25,26); (27,28); (29,30); (31,32); (33,34); (35,36);
   (37,38); (39,40); (41,42); (43,44); (45,46); (47,48); (49,50); (51,52)].
(** detail/sorting_network/sort59.h, index_pairs(). *)
Definition pairs59 : list (N * N) :=
  [(0,9); (1,6); (2,4); (3,7); (5,8); (11,24); (12,23); (13,26); (14,25); (15,19); (16,17); (18,22);
   (20,21); (27,40); (28,39); (29,42); (30,41); (31,35); (32,33); (34,38); (36,37); (43,56);
   (44,55); (45,58); (46,57); (47,51); (48,49); (50,54); (52,53); (0,1); (3,5); (4,10); (6,9);
   (7,8); (11,16); (12,18); (13,20); (14,15); (17,24); (19,25); (21,26); (22,23); (27,32); (28,34);
   (29,36); (30,31); (33,40); (35,41); (37,42); (38,39); (43,48); (44,50); (45,52); (46,47);
   (49,56); (51,57); (53,58); (54,55); (1,3); (2,5); (4,7); (8,10); (11,12); (13,14); (15,16);
   (17,19); (18,20); (21,22); (23,24); (25,26); (27,28); (29,30); (31,32); (33,35); (34,36);
   (37,38); (39,40); (41,42); (43,44); (45,46); (47,48); (49,51); (50,52); (53,54); (55,56);
   (57,58); (0,4); (1,2); (3,7); (5,9); (6,8); (11,13); (12,14); (15,21); (16,22); (17,18); (19,20);
   (23,25); (24,26); (27,29); (28,30); (31,37); (32,38); (33,34); (35,36); (39,41); (40,42);
   (43,45); (44,46); (47,53); (48,54); (49,50); (51,52); (55,57); (56,58); (0,1); (2,6); (4,5);
   (7,8); (9,10); (11,43); (12,13); (14,23); (15,17); (16,18); (19,21); (20,22); (24,25); (26,42);
   (28,29); (30,39); (31,33); (32,34); (35,37); (36,38); (40,41); (44,45); (46,55); (47,49);
   (48,50); (51,53); (52,54); (56,57); (2,4); (3,6); (5,7); (8,9); (11,27); (12,15); (13,17);
   (16,19); (18,21); (20,24); (22,25); (28,31); (29,33); (32,35); (34,37); (36,40); (38,41);
   (44,47); (45,49); (48,51); (50,53); (52,56); (54,57); (1,2); (3,4); (5,6); (7,8); (10,25);
   (12,44); (13,15); (14,17); (20,23); (22,24); (29,31); (30,33); (36,39); (38,40); (41,57);
   (45,47); (46,49); (52,55); (54,56); (2,3); (4,5); (6,7); (9,24); (10,41); (12,28); (13,45);
   (14,16); (17,19); (18,20); (21,23); (25,57); (30,32); (33,35); (34,36); (37,39); (40,56);
   (46,48); (49,51); (50,52); (53,55); (7,58); (9,40); (13,29); (14,15); (16,17); (18,19); (20,21);
   (22,23); (24,56); (25,41); (30,31); (32,33); (34,35); (36,37); (38,39); (46,47); (48,49);
   (50,51); (52,53); (54,55); (0,31); (1,32); (3,14); (6,37); (7,26); (8,23); (15,47); (16,48);
   (17,18); (19,20); (21,53); (24,40); (30,46); (33,34); (35,36); (38,54); (39,55); (42,58);
   (49,50); (51,52); (0,15); (1,16); (2,33); (3,30); (4,35); (5,36); (6,45); (7,18); (8,39);
   (14,22); (17,49); (19,51); (20,52); (21,29); (23,55); (26,42); (31,47); (32,48); (34,50);
   (37,53); (57,58); (0,11); (1,12); (2,17); (4,43); (5,44); (6,21); (7,34); (8,31); (9,32);
   (14,46); (18,50); (19,27); (20,28); (22,54); (23,39); (24,48); (33,49); (35,51); (36,52);
   (37,45); (41,53); (2,13); (4,19); (5,20); (10,33); (14,30); (15,31); (16,32); (18,34); (22,38);
   (23,47); (25,49); (26,50); (29,37); (35,43); (36,44); (39,51); (40,52); (42,54); (4,11); (5,12);
   (6,13); (7,14); (8,15); (9,16); (17,33); (21,29); (22,30); (23,31); (24,32); (26,34); (27,35);
   (28,36); (37,45); (38,46); (39,47); (40,48); (41,49); (42,50); (54,56); (1,4); (10,17); (14,22);
   (19,27); (20,28); (25,33); (30,38); (34,46); (35,43); (36,44); (49,55); (50,53); (56,57); (8,19);
   (9,20); (10,21); (15,27); (16,28); (17,29); (18,30); (23,35); (24,36); (25,37); (26,38); (31,43);
   (32,44); (33,45); (42,46); (50,52); (54,55); (8,11); (9,12); (10,13); (15,19); (16,20); (17,21);
   (18,22); (23,27); (24,28); (25,29); (26,30); (31,35); (32,36); (33,37); (34,38); (39,43);
   (40,44); (41,45); (46,48); (52,54); (53,55); (2,8); (3,9); (6,11); (7,12); (10,15); (13,19);
   (14,16); (17,23); (18,20); (21,27); (22,24); (25,31); (26,28); (29,35); (30,32); (33,39);
   (34,36); (37,43); (38,40); (41,47); (42,44); (45,51); (48,50); (53,54); (55,56); (2,4); (3,5);
   (6,8); (7,9); (10,11); (12,13); (14,15); (16,19); (17,18); (20,22); (21,23); (24,27); (25,26);
   (28,31); (29,30); (32,35); (33,34); (36,39); (37,38); (40,42); (41,43); (44,45); (46,47);
   (49,51); (3,6); (5,8); (7,10); (9,11); (12,14); (13,15); (16,17); (18,19); (20,21); (22,23);
   (24,25); (26,27); (28,29); (30,31); (32,33); (34,35); (36,37); (38,39); (40,41); (42,43);
   (44,46); (45,47); (48,49); (50,51); (3,4); (5,6); (7,8); (9,10); (11,12); (13,14); (15,16);
   (17,18); (19,20); (21,22); (23,24); (25,26); (27,28); (29,30); (31,32); (33,34); (35,36);
   (37,38); (39,40); (41,42); (43,44); (45,46); (47,48); (49,50); (51,52)].

(** detail/sorting_network/sort60.h, operator(). *)
Definition swaps60 : list (N * N) :=
  [(1,2); (3,10); (4,14); (5,8); (6,13); (7,12); (9,11); (16,17); (18,25); (19,29); (20,23); (21,28);
   (22,27); (24,26); (31,32); (33,40); (34,44); (35,38); (36,43); (37,42); (39,41); (46,47);
   (48,55); (49,59); (50,53); (51,58); (52,57); (54,56); (0,14); (1,5); (2,8); (3,7); (6,9);
   (10,12); (11,13); (15,29); (16,20); (17,23); (18,22); (21,24); (25,27); (26,28); (30,44);
   (31,35); (32,38); (33,37); (36,39); (40,42); (41,43); (45,59); (46,50); (47,53); (48,52);
   (51,54); (55,57); (56,58); (0,7); (1,6); (2,9); (4,10); (5,11); (8,13); (12,14); (15,22);
   (16,21); (17,24); (19,25); (20,26); (23,28); (27,29); (30,37); (31,36); (32,39); (34,40);
   (35,41); (38,43); (42,44); (45,52); (46,51); (47,54); (49,55); (50,56); (53,58); (57,59); (0,6);
   (2,4); (3,5); (7,11); (8,10); (9,12); (13,14); (15,21); (17,19); (18,20); (22,26); (23,25);
   (24,27); (28,29); (30,36); (32,34); (33,35); (37,41); (38,40); (39,42); (43,44); (45,51);
   (47,49); (48,50); (52,56); (53,55); (54,57); (58,59); (0,3); (1,2); (4,7); (5,9); (6,8); (10,11);
   (12,13); (14,59); (15,18); (16,17); (19,22); (20,24); (21,23); (25,26); (27,28); (29,44);
   (30,33); (31,32); (34,37); (35,39); (36,38); (40,41); (42,43); (45,48); (46,47); (49,52);
   (50,54); (51,53); (55,56); (57,58); (0,1); (2,3); (4,6); (7,9); (10,12); (11,13); (14,29);
   (15,16); (17,18); (19,21); (22,24); (25,27); (26,28); (30,31); (32,33); (34,36); (37,39);
   (40,42); (41,43); (44,59); (45,46); (47,48); (49,51); (52,54); (55,57); (56,58); (0,30); (1,2);
   (3,5); (8,10); (11,12); (13,58); (15,45); (16,17); (18,20); (23,25); (26,27); (28,43); (29,44);
   (31,32); (33,35); (38,40); (41,42); (46,47); (48,50); (53,55); (56,57); (0,15); (1,31); (3,4);
   (5,6); (7,8); (9,10); (12,57); (13,28); (16,46); (18,19); (20,21); (22,23); (24,25); (27,42);
   (30,45); (33,34); (35,36); (37,38); (39,40); (43,58); (48,49); (50,51); (52,53); (54,55); (1,16);
   (2,3); (4,5); (6,7); (8,9); (10,11); (12,27); (15,30); (17,18); (19,20); (21,22); (23,24);
   (25,26); (28,43); (31,46); (32,33); (34,35); (36,37); (38,39); (40,41); (42,57); (47,48);
   (49,50); (51,52); (53,54); (55,56); (2,32); (3,18); (4,49); (5,6); (7,8); (9,39); (10,40);
   (11,26); (16,31); (17,47); (19,34); (20,21); (22,23); (24,54); (25,55); (27,42); (33,48);
   (35,36); (37,38); (41,56); (50,51); (52,53); (2,17); (3,33); (4,19); (5,50); (6,51); (7,37);
   (8,38); (9,24); (10,25); (11,41); (18,48); (20,35); (21,36); (22,52); (23,53); (26,56); (32,47);
   (34,49); (39,54); (40,55); (4,15); (5,20); (6,21); (7,22); (8,23); (9,31); (11,48); (12,19);
   (17,32); (18,33); (24,39); (25,40); (26,41); (27,49); (35,50); (36,51); (37,52); (38,53);
   (43,54); (44,55); (1,4); (5,16); (6,17); (7,18); (8,30); (10,32); (11,33); (13,20); (14,21);
   (19,34); (22,37); (23,38); (24,46); (25,47); (26,48); (28,50); (29,51); (41,52); (42,53);
   (54,56); (55,58); (3,5); (8,15); (9,16); (10,17); (11,18); (13,24); (14,25); (19,30); (20,35);
   (21,36); (22,33); (23,45); (26,37); (28,46); (29,47); (34,38); (41,48); (42,49); (43,50);
   (44,51); (2,8); (5,9); (12,23); (18,22); (20,31); (21,32); (26,33); (27,45); (35,39); (36,40);
   (37,41); (50,54); (51,57); (2,4); (12,19); (13,20); (14,21); (23,30); (24,31); (25,32); (27,34);
   (28,35); (29,36); (38,45); (39,46); (40,47); (55,57); (12,15); (13,16); (14,17); (19,23);
   (20,24); (21,25); (27,30); (28,31); (29,32); (34,38); (35,39); (36,40); (42,45); (43,46);
   (44,47); (6,12); (7,13); (10,15); (11,16); (14,19); (17,23); (18,20); (21,27); (22,24); (25,30);
   (26,28); (29,34); (31,33); (32,38); (35,37); (36,42); (39,41); (40,45); (43,48); (44,49);
   (46,52); (47,53); (6,8); (7,9); (10,12); (11,15); (13,14); (16,18); (17,19); (20,22); (21,23);
   (24,27); (25,26); (28,30); (29,31); (32,34); (33,35); (36,37); (38,39); (40,42); (41,43);
   (44,48); (45,46); (47,49); (50,52); (51,53); (3,6); (5,8); (7,10); (9,12); (11,13); (14,15);
   (16,17); (18,19); (20,21); (22,23); (24,25); (26,27); (28,29); (30,31); (32,33); (34,35);
   (36,38); (37,39); (40,41); (42,43); (44,45); (46,48); (47,50); (49,52); (51,54); (53,56); (3,4);
   (5,6); (7,8); (9,10); (11,12); (13,14); (15,16); (17,18); (19,20); (21,22); (23,24); (25,26);
   (27,28); (29,30); (31,32); (33,34); (35,36); (37,38); (39,40); (41,42); (43,44); (45,46);
   (47,48); (49,50); (51,52); (53,54); (55,56)].
(** detail/sorting_network/sort60.h, index_pairs(). *)
Definition pairs60 : list (N * N) :=
  [(1,2); (3,10); (4,14); (5,8); (6,13); (7,12); (9,11); (16,17); (18,25); (19,29); (20,23); (21,28);
   (22,27); (24,26); (31,32); (33,40); (34,44); (35,38); (36,43); (37,42); (39,41); (46,47);
   (48,55); (49,59); (50,53); (51,58); (52,57); (54,56); (0,14); (1,5); (2,8); (3,7); (6,9);
   (10,12); (11,13); (15,29); (16,20); (17,23); (18,22); (21,24); (25,27); (26,28); (30,44);
   (31,35); (32,38); (33,37); (36,39); (40,42); (41,43); (45,59); (46,50); (47,53); (48,52);
   (51,54); (55,57); (56,58); (0,7); (1,6); (2,9); (4,10); (5,11); (8,13); (12,14); (15,22);
   (16,21); (17,24); (19,25); (20,26); (23,28); (27,29); (30,37); (31,36); (32,39); (34,40);
   (35,41); (38,43); (42,44); (45,52); (46,51); (47,54); (49,55); (50,56); (53,58); (57,59); (0,6);
   (2,4); (3,5); (7,11); (8,10); (9,12); (13,14); (15,21); (17,19); (18,20); (22,26); (23,25);
   (24,27); (28,29); (30,36); (32,34); (33,35); (37,41); (38,40); (39,42); (43,44); (45,51);
   (47,49); (48,50); (52,56); (53,55); (54,57); (58,59); (0,3); (1,2); (4,7); (5,9); (6,8); (10,11);
   (12,13); (14,59); (15,18); (16,17); (19,22); (20,24); (21,23); (25,26); (27,28); (29,44);
   (30,33); (31,32); (34,37); (35,39); (36,38); (40,41); (42,43); (45,48); (46,47); (49,52);
   (50,54); (51,53); (55,56); (57,58); (0,1); (2,3); (4,6); (7,9); (10,12); (11,13); (14,29);
   (15,16); (17,18); (19,21); (22,24); (25,27); (26,28); (30,31); (32,33); (34,36); (37,39);
   (40,42); (41,43); (44,59); (45,46); (47,48); (49,51); (52,54); (55,57); (56,58); (0,30); (1,2);
   (3,5); (8,10); (11,12); (13,58); (15,45); (16,17); (18,20); (23,25); (26,27); (28,43); (29,44);
   (31,32); (33,35); (38,40); (41,42); (46,47); (48,50); (53,55); (56,57); (0,15); (1,31); (3,4);
   (5,6); (7,8); (9,10); (12,57); (13,28); (16,46); (18,19); (20,21); (22,23); (24,25); (27,42);
   (30,45); (33,34); (35,36); (37,38); (39,40); (43,58); (48,49); (50,51); (52,53); (54,55); (1,16);
   (2,3); (4,5); (6,7); (8,9); (10,11); (12,27); (15,30); (17,18); (19,20); (21,22); (23,24);
   (25,26); (28,43); (31,46); (32,33); (34,35); (36,37); (38,39); (40,41); (42,57); (47,48);
   (49,50); (51,52); (53,54); (55,56); (2,32); (3,18); (4,49); (5,6); (7,8); (9,39); (10,40);
   (11,26); (16,31); (17,47); (19,34); (20,21); (22,23); (24,54); (25,55); (27,42); (33,48);
   (35,36); (37,38); (41,56); (50,51); (52,53); (2,17); (3,33); (4,19); (5,50); (6,51); (7,37);
   (8,38); (9,24); (10,25); (11,41); (18,48); (20,35); (21,36); (22,52); (23,53); (26,56); (32,47);
   (34,49); (39,54); (40,55); (4,15); (5,20); (6,21); (7,22); (8,23); (9,31); (11,48); (12,19);
   (17,32); (18,33); (24,39); (25,40); (26,41); (27,49); (35,50); (36,51); (37,52); (38,53);
   (43,54); (44,55); (1,4); (5,16); (6,17); (7,18); (8,30); (10,32); (11,33); (13,20); (14,21);
   (19,34); (22,37); (23,38); (24,46); (25,47); (26,48); (28,50); (29,51); (41,52); (42,53);
   (54,56); (55,58); (3,5); (8,15); (9,16); (10,17); (11,18); (13,24); (14,25); (19,30); (20,35);
   (21,36); (22,33); (23,45); (26,37); (28,46); (29,47); (34,38); (41,48); (42,49); (43,50);
   (44,51); (2,8); (5,9); (12,23); (18,22); (20,31); (21,32); (26,33); (27,45); (35,39); (36,40);
   (37,41); (50,54); (51,57); (2,4); (12,19); (13,20); (14,21); (23,30); (24,31); (25,32); (27,34);
   (28,35); (29,36); (38,45); (39,46); (40,47); (55,57); (12,15); (13,16); (14,17); (19,23);
   (20,24); (21,25); (27,30); (28,31); (29,32); (34,38); (35,39); (36,40); (42,45); (43,46);
   (44,47); (6,12); (7,13); (10,15); (11,16); (14,19); (17,23); (18,20); (21,27); (22,24); (25,30);
   (26,28); (29,34); (31,33); (32,38); (35,37); (36,42); (39,41); (40,45); (43,48); (44,49);
   (46,52); (47,53); (6,8); (7,9); (10,12); (11,15); (13,14); (16,18); (17,19); (20,22); (21,23);
   (24,27); (25,26); (28,30); (29,31); (32,34); (33,35); (36,37); (38,39); (40,42); (41,43);
   (44,48); (45,46); (47,49); (50,52); (51,53); (3,6); (5,8); (7,10); (9,12); (11,13); (14,15);
   (16,17); (18,19); (20,21); (22,23); (24,25); (26,27); (28,29); (30,31); (32,33); (34,35);
   (36,38); (37,39); (40,41); (42,43); (44,45); (46,48); (47,50); (49,52); (51,54); (53,56); (3,4);
   (5,6); (7,8); (9,10); (11,12); (13,14); (15,16); (17,18); (19,20); (21,22); (23,24); (25,26);
   (27,28); (29,30); (31,32); (33,34); (35,36); (37,38); (39,40); (41,42); (43,44); (45,46);
   (47,48); (49,50); (51,52); (53,54); (55,56)].

(** detail/sorting_network/sort61.h, operator(). *)
Definition swaps61 : list (N * N) :=
  [(1,2); (3,10); (4,14); (5,8); (6,13); (7,12); (9,11); (16,17); (18,25); (19,29); (20,23); (21,28);
   (22,27); (24,26); (31,32); (33,40); (34,44); (35,38); (36,43); (37,42); (39,41); (45,58);
   (46,57); (47,60); (48,59); (49,53); (50,51); (52,56); (54,55); (0,14); (1,5); (2,8); (3,7);
   (6,9); (10,12); (11,13); (15,29); (16,20); (17,23); (18,22); (21,24); (25,27); (26,28); (30,44);
   (31,35); (32,38); (33,37); (36,39); (40,42); (41,43); (45,50); (46,52); (47,54); (48,49);
   (51,58); (53,59); (55,60); (56,57); (0,7); (1,6); (2,9); (4,10); (5,11); (8,13); (12,14);
   (15,22); (16,21); (17,24); (19,25); (20,26); (23,28); (27,29); (30,37); (31,36); (32,39);
   (34,40); (35,41); (38,43); (42,44); (45,46); (47,48); (49,50); (51,53); (52,54); (55,56);
   (57,58); (59,60); (0,6); (2,4); (3,5); (7,11); (8,10); (9,12); (13,14); (15,21); (17,19);
   (18,20); (22,26); (23,25); (24,27); (28,29); (30,36); (32,34); (33,35); (37,41); (38,40);
   (39,42); (43,44); (45,47); (46,48); (49,55); (50,56); (51,52); (53,54); (57,59); (58,60); (0,3);
   (1,2); (4,7); (5,9); (6,8); (10,11); (12,13); (15,18); (16,17); (19,22); (20,24); (21,23);
   (25,26); (27,28); (29,44); (30,33); (31,32); (34,37); (35,39); (36,38); (40,41); (42,43);
   (46,47); (48,57); (49,51); (50,52); (53,55); (54,56); (58,59); (0,1); (2,3); (4,6); (7,9);
   (10,12); (11,13); (15,16); (17,18); (19,21); (22,24); (25,27); (26,28); (30,31); (32,33);
   (34,36); (37,39); (40,42); (41,43); (46,49); (47,51); (50,53); (52,55); (54,58); (56,59); (0,30);
   (1,2); (3,5); (8,10); (11,12); (14,59); (15,45); (16,17); (18,20); (23,25); (26,27); (28,43);
   (31,32); (33,35); (38,40); (41,42); (47,49); (48,51); (54,57); (56,58); (0,15); (1,31); (3,4);
   (5,6); (7,8); (9,10); (13,58); (14,29); (16,46); (18,19); (20,21); (22,23); (24,25); (27,42);
   (30,45); (33,34); (35,36); (37,38); (39,40); (44,59); (48,50); (51,53); (52,54); (55,57); (1,16);
   (2,3); (4,5); (6,7); (8,9); (10,11); (13,28); (15,30); (17,18); (19,20); (21,22); (23,24);
   (25,26); (29,44); (31,46); (32,33); (34,35); (36,37); (38,39); (40,41); (43,58); (48,49);
   (50,51); (52,53); (54,55); (56,57); (2,32); (3,33); (4,49); (5,6); (7,8); (9,39); (10,40);
   (11,41); (12,57); (16,31); (17,47); (18,48); (19,34); (20,21); (22,23); (25,55); (26,60);
   (28,43); (35,36); (37,38); (51,52); (53,54); (2,17); (3,18); (4,19); (5,50); (6,51); (7,37);
   (8,38); (10,25); (11,26); (12,27); (20,35); (21,36); (23,53); (24,54); (32,47); (33,48); (34,49);
   (40,55); (41,60); (42,57); (4,15); (5,20); (6,21); (7,52); (8,23); (9,24); (12,19); (17,32);
   (18,33); (22,37); (25,40); (26,41); (27,42); (35,50); (36,51); (38,53); (39,54); (44,55);
   (58,60); (1,4); (5,16); (6,17); (8,30); (9,31); (10,32); (13,20); (14,21); (19,34); (23,38);
   (24,39); (25,47); (27,49); (28,50); (29,51); (37,56); (42,53); (43,54); (48,52); (8,15); (9,16);
   (10,17); (11,37); (14,25); (19,30); (20,35); (21,36); (22,48); (23,45); (24,46); (26,52);
   (29,47); (34,38); (41,56); (42,49); (43,50); (44,51); (54,58); (2,8); (3,9); (7,22); (11,33);
   (12,23); (13,24); (20,31); (21,32); (27,45); (28,46); (35,39); (36,40); (37,48); (41,52);
   (50,56); (51,57); (2,4); (5,8); (7,18); (12,19); (13,20); (14,21); (23,30); (24,31); (25,32);
   (27,34); (28,35); (29,36); (33,37); (38,45); (39,46); (40,47); (41,48); (51,54); (57,58);
   (11,18); (12,15); (13,16); (14,17); (19,23); (20,24); (21,25); (22,33); (26,37); (27,30);
   (28,31); (29,32); (34,38); (35,39); (36,40); (42,45); (43,46); (44,47); (51,56); (55,57); (6,12);
   (7,13); (10,15); (11,16); (14,19); (17,23); (18,22); (21,27); (25,30); (26,33); (29,34); (32,38);
   (36,42); (37,41); (40,45); (43,48); (44,49); (46,52); (47,53); (57,60); (6,8); (7,10); (9,12);
   (11,13); (14,15); (16,19); (18,20); (22,24); (26,28); (29,30); (31,33); (35,37); (39,41);
   (42,43); (44,46); (45,48); (47,50); (49,52); (51,53); (57,58); (59,60); (3,6); (7,12); (11,14);
   (13,15); (17,18); (20,21); (22,23); (24,27); (25,26); (28,31); (32,35); (33,34); (36,39);
   (37,38); (40,41); (44,45); (46,48); (47,52); (53,56); (3,5); (6,8); (7,9); (10,12); (13,14);
   (16,17); (18,19); (20,22); (21,23); (24,25); (26,27); (28,29); (30,31); (32,33); (34,35);
   (36,37); (38,39); (40,42); (41,43); (45,46); (47,49); (50,52); (54,56); (3,4); (7,8); (11,12);
   (15,16); (17,18); (19,20); (21,22); (23,24); (25,26); (27,28); (29,30); (31,32); (33,34);
   (35,36); (37,38); (39,40); (41,42); (43,44); (47,48); (51,52); (55,56)].
(** detail/sorting_network/sort61.h, index_pairs(). *)
Definition pairs61 : list (N * N) :=
  [(1,2); (3,10); (4,14); (5,8); (6,13); (7,12); (9,11); (16,17); (18,25); (19,29); (20,23); (21,28);
   (22,27); (24,26); (31,32); (33,40); (34,44); (35,38); (36,43); (37,42); (39,41); (45,58);
   (46,57); (47,60); (48,59); (49,53); (50,51); (52,56); (54,55); (0,14); (1,5); (2,8); (3,7);
   (6,9); (10,12); (11,13); (15,29); (16,20); (17,23); (18,22); (21,24); (25,27); (26,28); (30,44);
   (31,35); (32,38); (33,37); (36,39); (40,42); (41,43); (45,50); (46,52); (47,54); (48,49);
   (51,58); (53,59); (55,60); (56,57); (0,7); (1,6); (2,9); (4,10); (5,11); (8,13); (12,14);
   (15,22); (16,21); (17,24); (19,25); (20,26); (23,28); (27,29); (30,37); (31,36); (32,39);
   (34,40); (35,41); (38,43); (42,44); (45,46); (47,48); (49,50); (51,53); (52,54); (55,56);
   (57,58); (59,60); (0,6); (2,4); (3,5); (7,11); (8,10); (9,12); (13,14); (15,21); (17,19);
   (18,20); (22,26); (23,25); (24,27); (28,29); (30,36); (32,34); (33,35); (37,41); (38,40);
   (39,42); (43,44); (45,47); (46,48); (49,55); (50,56); (51,52); (53,54); (57,59); (58,60); (0,3);
   (1,2); (4,7); (5,9); (6,8); (10,11); (12,13); (15,18); (16,17); (19,22); (20,24); (21,23);
   (25,26); (27,28); (29,44); (30,33); (31,32); (34,37); (35,39); (36,38); (40,41); (42,43);
   (46,47); (48,57); (49,51); (50,52); (53,55); (54,56); (58,59); (0,1); (2,3); (4,6); (7,9);
   (10,12); (11,13); (15,16); (17,18); (19,21); (22,24); (25,27); (26,28); (30,31); (32,33);
   (34,36); (37,39); (40,42); (41,43); (46,49); (47,51); (50,53); (52,55); (54,58); (56,59); (0,30);
   (1,2); (3,5); (8,10); (11,12); (14,59); (15,45); (16,17); (18,20); (23,25); (26,27); (28,43);
   (31,32); (33,35); (38,40); (41,42); (47,49); (48,51); (54,57); (56,58); (0,15); (1,31); (3,4);
   (5,6); (7,8); (9,10); (13,58); (14,29); (16,46); (18,19); (20,21); (22,23); (24,25); (27,42);
   (30,45); (33,34); (35,36); (37,38); (39,40); (44,59); (48,50); (51,53); (52,54); (55,57); (1,16);
   (2,3); (4,5); (6,7); (8,9); (10,11); (13,28); (15,30); (17,18); (19,20); (21,22); (23,24);
   (25,26); (29,44); (31,46); (32,33); (34,35); (36,37); (38,39); (40,41); (43,58); (48,49);
   (50,51); (52,53); (54,55); (56,57); (2,32); (3,33); (4,49); (5,6); (7,8); (9,39); (10,40);
   (11,41); (12,57); (16,31); (17,47); (18,48); (19,34); (20,21); (22,23); (25,55); (26,60);
   (28,43); (35,36); (37,38); (51,52); (53,54); (2,17); (3,18); (4,19); (5,50); (6,51); (7,37);
   (8,38); (10,25); (11,26); (12,27); (20,35); (21,36); (23,53); (24,54); (32,47); (33,48); (34,49);
   (40,55); (41,60); (42,57); (4,15); (5,20); (6,21); (7,52); (8,23); (9,24); (12,19); (17,32);
   (18,33); (22,37); (25,40); (26,41); (27,42); (35,50); (36,51); (38,53); (39,54); (44,55);
   (58,60); (1,4); (5,16); (6,17); (8,30); (9,31); (10,32); (13,20); (14,21); (19,34); (23,38);
   (24,39); (25,47); (27,49); (28,50); (29,51); (37,56); (42,53); (43,54); (48,52); (8,15); (9,16);
   (10,17); (11,37); (14,25); (19,30); (20,35); (21,36); (22,48); (23,45); (24,46); (26,52);
   (29,47); (34,38); (41,56); (42,49); (43,50); (44,51); (54,58); (2,8); (3,9); (7,22); (11,33);
   (12,23); (13,24); (20,31); (21,32); (27,45); (28,46); (35,39); (36,40); (37,48); (41,52);
   (50,56); (51,57); (2,4); (5,8); (7,18); (12,19); (13,20); (14,21); (23,30); (24,31); (25,32);
   (27,34); (28,35); (29,36); (33,37); (38,45); (39,46); (40,47); (41,48); (51,54); (57,58);
   (11,18); (12,15); (13,16); (14,17); (19,23); (20,24); (21,25); (22,33); (26,37); (27,30);
   (28,31); (29,32); (34,38); (35,39); (36,40); (42,45); (43,46); (44,47); (51,56); (55,57); (6,12);
   (7,13); (10,15); (11,16); (14,19); (17,23); (18,22); (21,27); (25,30); (26,33); (29,34); (32,38);
   (36,42); (37,41); (40,45); (43,48); (44,49); (46,52); (47,53); (57,60); (6,8); (7,10); (9,12);
   (11,13); (14,15); (16,19); (18,20); (22,24); (26,28); (29,30); (31,33); (35,37); (39,41);
   (42,43); (44,46); (45,48); (47,50); (49,52); (51,53); (57,58); (59,60); (3,6); (7,12); (11,14);
   (13,15); (17,18); (20,21); (22,23); (24,27); (25,26); (28,31); (32,35); (33,34); (36,39);
   (37,38); (40,41); (44,45); (46,48); (47,52); (53,56); (3,5); (6,8); (7,9); (10,12); (13,14);
   (16,17); (18,19); (20,22); (21,23); (24,25); (26,27); (28,29); (30,31); (32,33); (34,35);
   (36,37); (38,39); (40,42); (41,43); (45,46); (47,49); (50,52); (54,56); (3,4); (7,8); (11,12);
   (15,16); (17,18); (19,20); (21,22); (23,24); (25,26); (27,28); (29,30); (31,32); (33,34);
   (35,36); (37,38); (39,40); (41,42); (43,44); (47,48); (51,52); (55,56)].

(** detail/sorting_network/sort62.h, operator(). *)
Definition swaps62 : list (N * N) :=
  [(1,2); (3,10); (4,14); (5,8); (6,13); (7,12); (9,11); (15,28); (16,27); (17,30); (18,29); (19,23);
   (20,21); (22,26); (24,25); (32,33); (34,41); (35,45); (36,39); (37,44); (38,43); (40,42);
   (46,59); (47,58); (48,61); (49,60); (50,54); (51,52); (53,57); (55,56); (0,14); (1,5); (2,8);
   (3,7); (6,9); (10,12); (11,13); (15,20); (16,22); (17,24); (18,19); (21,28); (23,29); (25,30);
   (26,27); (31,45); (32,36); (33,39); (34,38); (37,40); (41,43); (42,44); (46,51); (47,53);
   (48,55); (49,50); (52,59); (54,60); (56,61); (57,58); (0,7); (1,6); (2,9); (4,10); (5,11);
   (8,13); (12,14); (15,16); (17,18); (19,20); (21,23); (22,24); (25,26); (27,28); (29,30); (31,38);
   (32,37); (33,40); (35,41); (36,42); (39,44); (43,45); (46,47); (48,49); (50,51); (52,54);
   (53,55); (56,57); (58,59); (60,61); (0,6); (2,4); (3,5); (7,11); (8,10); (9,12); (13,14);
   (15,17); (16,18); (19,25); (20,26); (21,22); (23,24); (27,29); (28,30); (31,37); (33,35);
   (34,36); (38,42); (39,41); (40,43); (44,45); (46,48); (47,49); (50,56); (51,57); (52,53);
   (54,55); (58,60); (59,61); (0,3); (1,2); (4,7); (5,9); (6,8); (10,11); (12,13); (15,46); (16,17);
   (18,27); (19,21); (20,22); (23,25); (24,26); (28,29); (31,34); (32,33); (35,38); (36,40);
   (37,39); (41,42); (43,44); (47,48); (49,58); (50,52); (51,53); (54,56); (55,57); (59,60); (0,1);
   (2,3); (4,6); (7,9); (10,12); (11,13); (16,19); (17,21); (20,23); (22,25); (24,28); (26,29);
   (31,32); (33,34); (35,37); (38,40); (41,43); (42,44); (47,50); (48,52); (51,54); (53,56);
   (55,59); (57,60); (0,31); (1,2); (3,5); (8,10); (11,12); (14,60); (16,47); (17,19); (18,21);
   (24,27); (26,28); (29,45); (32,33); (34,36); (39,41); (42,43); (48,50); (49,52); (55,58);
   (57,59); (0,15); (1,32); (3,4); (5,6); (7,8); (9,10); (13,59); (14,29); (17,48); (18,20);
   (21,23); (22,24); (25,27); (28,44); (31,46); (34,35); (36,37); (38,39); (40,41); (45,60);
   (49,51); (52,54); (53,55); (56,58); (1,16); (2,3); (4,5); (6,7); (8,9); (10,11); (13,28);
   (15,31); (18,19); (20,21); (22,23); (24,25); (26,27); (29,45); (32,47); (33,34); (35,36);
   (37,38); (39,40); (41,42); (44,59); (49,50); (51,52); (53,54); (55,56); (57,58); (2,33); (3,34);
   (4,50); (5,6); (7,8); (9,40); (10,41); (11,61); (12,58); (16,32); (18,49); (19,35); (21,22);
   (23,24); (25,56); (26,57); (27,43); (28,44); (30,42); (36,37); (38,39); (52,53); (54,55); (2,17);
   (3,18); (4,19); (5,51); (6,52); (7,38); (8,39); (10,25); (11,30); (12,27); (20,36); (21,37);
   (22,53); (23,54); (24,55); (33,48); (35,50); (41,56); (42,61); (43,58); (4,15); (5,20); (6,21);
   (7,49); (8,23); (9,24); (12,19); (17,33); (22,34); (25,41); (27,43); (30,42); (36,51); (37,52);
   (38,57); (39,54); (40,55); (45,56); (59,61); (1,4); (5,16); (6,17); (7,18); (8,31); (9,32);
   (10,33); (11,22); (13,20); (14,21); (19,35); (23,39); (24,40); (25,48); (26,38); (27,50);
   (28,51); (29,52); (34,53); (42,57); (43,54); (44,55); (60,61); (7,11); (8,15); (9,16); (10,17);
   (14,25); (18,26); (19,31); (20,36); (21,37); (22,34); (23,46); (24,47); (29,48); (30,53);
   (35,39); (38,49); (43,50); (44,51); (45,52); (56,57); (2,8); (3,9); (11,18); (12,23); (13,24);
   (20,32); (21,33); (26,38); (27,46); (28,47); (30,34); (36,40); (37,41); (42,53); (52,58);
   (55,56); (57,60); (2,4); (5,8); (12,19); (13,20); (14,21); (22,26); (23,31); (24,32); (25,33);
   (27,35); (28,36); (29,37); (30,38); (34,49); (39,46); (40,47); (41,48); (51,53); (58,59); (3,8);
   (12,15); (13,16); (14,17); (18,22); (19,23); (20,24); (21,25); (26,30); (27,31); (28,32);
   (29,33); (34,38); (35,39); (36,40); (37,41); (42,49); (43,46); (44,47); (45,48); (53,55);
   (56,58); (57,59); (6,12); (7,13); (10,15); (11,16); (14,19); (17,23); (18,20); (21,27); (22,24);
   (25,31); (26,28); (29,35); (30,32); (33,39); (34,36); (37,43); (38,40); (41,46); (42,44);
   (45,50); (47,49); (48,54); (57,58); (3,6); (7,9); (10,12); (11,13); (14,15); (16,18); (17,19);
   (20,22); (21,23); (24,26); (25,27); (28,29); (30,31); (32,33); (34,35); (36,37); (38,39);
   (40,42); (41,43); (44,47); (45,46); (48,50); (49,51); (52,54); (3,5); (6,8); (7,10); (9,12);
   (11,14); (13,15); (16,17); (18,19); (20,21); (22,23); (24,25); (26,27); (28,30); (29,31);
   (32,34); (33,35); (36,38); (37,39); (40,41); (42,43); (44,45); (46,47); (48,49); (50,51);
   (52,53); (54,55); (3,4); (7,8); (9,10); (11,12); (13,14); (15,16); (17,18); (19,20); (21,22);
   (23,24); (25,26); (27,28); (29,30); (31,32); (33,34); (35,36); (37,38); (39,40); (41,42);
   (43,44); (45,46); (47,48); (49,50); (51,52); (53,54); (55,56)].
(** detail/sorting_network/sort62.h, index_pairs(). *)
Definition pairs62 : list (N * N) :=
  [(1,2); (3,10); (4,14); (5,8); (6,13); (7,12); (9,11); (15,28); (16,27); (17,30); (18,29); (19,23);
   (20,21); (22,26); (24,25); (32,33); (34,41); (35,45); (36,39); (37,44); (38,43); (40,42);
   (46,59); (47,58); (48,61); (49,60); (50,54); (51,52); (53,57); (55,56); (0,14); (1,5); (2,8);
   (3,7); (6,9); (10,12); (11,13); (15,20); (16,22); (17,24); (18,19); (21,28); (23,29); (25,30);
   (26,27); (31,45); (32,36); (33,39); (34,38); (37,40); (41,43); (42,44); (46,51); (47,53);
   (48,55); (49,50); (52,59); (54,60); (56,61); (57,58); (0,7); (1,6); (2,9); (4,10); (5,11);
   (8,13); (12,14); (15,16); (17,18); (19,20); (21,23); (22,24); (25,26); (27,28); (29,30); (31,38);
   (32,37); (33,40); (35,41); (36,42); (39,44); (43,45); (46,47); (48,49); (50,51); (52,54);
   (53,55); (56,57); (58,59); (60,61); (0,6); (2,4); (3,5); (7,11); (8,10); (9,12); (13,14);
   (15,17); (16,18); (19,25); (20,26); (21,22); (23,24); (27,29); (28,30); (31,37); (33,35);
   (34,36); (38,42); (39,41); (40,43); (44,45); (46,48); (47,49); (50,56); (51,57); (52,53);
   (54,55); (58,60); (59,61); (0,3); (1,2); (4,7); (5,9); (6,8); (10,11); (12,13); (15,46); (16,17);
   (18,27); (19,21); (20,22); (23,25); (24,26); (28,29); (31,34); (32,33); (35,38); (36,40);
   (37,39); (41,42); (43,44); (47,48); (49,58); (50,52); (51,53); (54,56); (55,57); (59,60); (0,1);
   (2,3); (4,6); (7,9); (10,12); (11,13); (16,19); (17,21); (20,23); (22,25); (24,28); (26,29);
   (31,32); (33,34); (35,37); (38,40); (41,43); (42,44); (47,50); (48,52); (51,54); (53,56);
   (55,59); (57,60); (0,31); (1,2); (3,5); (8,10); (11,12); (14,60); (16,47); (17,19); (18,21);
   (24,27); (26,28); (29,45); (32,33); (34,36); (39,41); (42,43); (48,50); (49,52); (55,58);
   (57,59); (0,15); (1,32); (3,4); (5,6); (7,8); (9,10); (13,59); (14,29); (17,48); (18,20);
   (21,23); (22,24); (25,27); (28,44); (31,46); (34,35); (36,37); (38,39); (40,41); (45,60);
   (49,51); (52,54); (53,55); (56,58); (1,16); (2,3); (4,5); (6,7); (8,9); (10,11); (13,28);
   (15,31); (18,19); (20,21); (22,23); (24,25); (26,27); (29,45); (32,47); (33,34); (35,36);
   (37,38); (39,40); (41,42); (44,59); (49,50); (51,52); (53,54); (55,56); (57,58); (2,33); (3,34);
   (4,50); (5,6); (7,8); (9,40); (10,41); (11,61); (12,58); (16,32); (18,49); (19,35); (21,22);
   (23,24); (25,56); (26,57); (27,43); (28,44); (30,42); (36,37); (38,39); (52,53); (54,55); (2,17);
   (3,18); (4,19); (5,51); (6,52); (7,38); (8,39); (10,25); (11,30); (12,27); (20,36); (21,37);
   (22,53); (23,54); (24,55); (33,48); (35,50); (41,56); (42,61); (43,58); (4,15); (5,20); (6,21);
   (7,49); (8,23); (9,24); (12,19); (17,33); (22,34); (25,41); (27,43); (30,42); (36,51); (37,52);
   (38,57); (39,54); (40,55); (45,56); (59,61); (1,4); (5,16); (6,17); (7,18); (8,31); (9,32);
   (10,33); (11,22); (13,20); (14,21); (19,35); (23,39); (24,40); (25,48); (26,38); (27,50);
   (28,51); (29,52); (34,53); (42,57); (43,54); (44,55); (60,61); (7,11); (8,15); (9,16); (10,17);
   (14,25); (18,26); (19,31); (20,36); (21,37); (22,34); (23,46); (24,47); (29,48); (30,53);
   (35,39); (38,49); (43,50); (44,51); (45,52); (56,57); (2,8); (3,9); (11,18); (12,23); (13,24);
   (20,32); (21,33); (26,38); (27,46); (28,47); (30,34); (36,40); (37,41); (42,53); (52,58);
   (55,56); (57,60); (2,4); (5,8); (12,19); (13,20); (14,21); (22,26); (23,31); (24,32); (25,33);
   (27,35); (28,36); (29,37); (30,38); (34,49); (39,46); (40,47); (41,48); (51,53); (58,59); (3,8);
   (12,15); (13,16); (14,17); (18,22); (19,23); (20,24); (21,25); (26,30); (27,31); (28,32);
   (29,33); (34,38); (35,39); (36,40); (37,41); (42,49); (43,46); (44,47); (45,48); (53,55);
   (56,58); (57,59); (6,12); (7,13); (10,15); (11,16); (14,19); (17,23); (18,20); (21,27); (22,24);
   (25,31); (26,28); (29,35); (30,32); (33,39); (34,36); (37,43); (38,40); (41,46); (42,44);
   (45,50); (47,49); (48,54); (57,58); (3,6); (7,9); (10,12); (11,13); (14,15); (16,18); (17,19);
   (20,22); (21,23); (24,26); (25,27); (28,29); (30,31); (32,33); (34,35); (36,37); (38,39);
   (40,42); (41,43); (44,47); (45,46); (48,50); (49,51); (52,54); (3,5); (6,8); (7,10); (9,12);
   (11,14); (13,15); (16,17); (18,19); (20,21); (22,23); (24,25); (26,27); (28,30); (29,31);
   (32,34); (33,35); (36,38); (37,39); (40,41); (42,43); (44,45); (46,47); (48,49); (50,51);
   (52,53); (54,55); (3,4); (7,8); (9,10); (11,12); (13,14); (15,16); (17,18); (19,20); (21,22);
   (23,24); (25,26); (27,28); (29,30); (31,32); (33,34); (35,36); (37,38); (39,40); (41,42);
   (43,44); (45,46); (47,48); (49,50); (51,52); (53,54); (55,56)].

(** detail/sorting_network/sort63.h, operator(). *)
Definition swaps63 : list (N * N) :=
  [(1,2); (3,10); (4,14); (5,8); (6,13); (7,12); (9,11); (15,28); (16,27); (17,30); (18,29); (19,23);
   (20,21); (22,26); (24,25); (31,44); (32,43); (33,46); (34,45); (35,39); (36,37); (38,42);
   (40,41); (47,60); (48,59); (49,62); (50,61); (51,55); (52,53); (54,58); (56,57); (0,14); (1,5);
   (2,8); (3,7); (6,9); (10,12); (11,13); (15,20); (16,22); (17,24); (18,19); (21,28); (23,29);
   (25,30); (26,27); (31,36); (32,38); (33,40); (34,35); (37,44); (39,45); (41,46); (42,43);
   (47,52); (48,54); (49,56); (50,51); (53,60); (55,61); (57,62); (58,59); (0,7); (1,6); (2,9);
   (4,10); (5,11); (8,13); (12,14); (15,16); (17,18); (19,20); (21,23); (22,24); (25,26); (27,28);
   (29,30); (31,32); (33,34); (35,36); (37,39); (38,40); (41,42); (43,44); (45,46); (47,48);
   (49,50); (51,52); (53,55); (54,56); (57,58); (59,60); (61,62); (0,6); (2,4); (3,5); (7,11);
   (8,10); (9,12); (13,14); (15,17); (16,18); (19,25); (20,26); (21,22); (23,24); (27,29); (28,30);
   (31,33); (32,34); (35,41); (36,42); (37,38); (39,40); (43,45); (44,46); (47,49); (48,50);
   (51,57); (52,58); (53,54); (55,56); (59,61); (60,62); (0,3); (1,2); (4,7); (5,9); (6,8); (10,11);
   (12,13); (15,47); (16,17); (18,27); (19,21); (20,22); (23,25); (24,26); (28,29); (32,33);
   (34,43); (35,37); (36,38); (39,41); (40,42); (44,45); (46,62); (48,49); (50,59); (51,53);
   (52,54); (55,57); (56,58); (60,61); (0,1); (2,3); (4,6); (7,9); (10,12); (11,13); (16,19);
   (17,21); (20,23); (22,25); (24,28); (26,29); (32,35); (33,37); (36,39); (38,41); (40,44);
   (42,45); (48,51); (49,53); (52,55); (54,57); (56,60); (58,61); (0,31); (1,2); (3,5); (8,10);
   (11,12); (14,61); (16,48); (17,19); (18,21); (24,27); (26,28); (29,45); (33,35); (34,37);
   (40,43); (42,44); (49,51); (50,53); (56,59); (58,60); (0,15); (1,32); (3,4); (5,6); (7,8);
   (9,10); (13,60); (14,29); (17,49); (18,20); (21,23); (22,24); (25,27); (28,44); (31,47); (34,36);
   (37,39); (38,40); (41,43); (45,61); (50,52); (53,55); (54,56); (57,59); (1,16); (2,3); (4,5);
   (6,7); (8,9); (10,11); (13,28); (15,31); (18,19); (20,21); (22,23); (24,25); (26,27); (29,45);
   (32,48); (34,35); (36,37); (38,39); (40,41); (42,43); (44,60); (50,51); (52,53); (54,55);
   (56,57); (58,59); (2,33); (4,51); (5,6); (7,8); (10,41); (11,30); (12,59); (16,32); (18,50);
   (19,35); (20,36); (21,22); (23,24); (25,57); (26,58); (27,43); (28,44); (37,38); (39,40);
   (53,54); (55,56); (2,17); (3,38); (4,19); (5,52); (6,53); (7,42); (8,39); (9,40); (10,25);
   (11,46); (12,27); (18,34); (21,37); (22,54); (23,55); (24,56); (30,62); (33,49); (35,51);
   (41,57); (43,59); (3,22); (4,15); (5,20); (6,21); (7,50); (8,23); (9,24); (12,19); (17,33);
   (25,41); (26,34); (27,43); (30,46); (36,52); (37,53); (38,54); (39,55); (40,56); (42,58);
   (45,57); (61,62); (1,4); (3,18); (5,16); (6,17); (7,26); (8,31); (9,32); (10,33); (11,38);
   (13,20); (14,21); (19,35); (23,39); (24,40); (25,49); (27,51); (28,52); (29,53); (30,54);
   (42,50); (43,55); (44,56); (46,58); (7,18); (8,15); (9,16); (10,17); (14,25); (19,31); (20,36);
   (21,37); (22,38); (23,47); (24,48); (29,49); (34,42); (35,39); (43,51); (44,52); (45,53);
   (46,54); (58,60); (2,8); (3,9); (11,22); (12,23); (13,24); (20,32); (21,33); (26,34); (27,47);
   (28,48); (30,38); (36,40); (37,41); (42,50); (53,59); (54,56); (60,61); (2,4); (3,8); (11,26);
   (12,19); (13,20); (14,21); (22,34); (23,31); (24,32); (25,33); (27,35); (28,36); (29,37);
   (30,42); (38,50); (39,47); (40,48); (41,49); (56,57); (58,59); (11,18); (12,15); (13,16);
   (14,17); (19,23); (20,24); (21,25); (22,26); (27,31); (28,32); (29,33); (30,34); (35,39);
   (36,40); (37,41); (38,42); (43,47); (44,48); (45,49); (46,50); (56,58); (57,59); (6,12); (7,13);
   (10,15); (11,16); (14,19); (17,23); (18,20); (21,27); (22,24); (25,31); (26,28); (29,35);
   (30,32); (33,39); (34,36); (37,43); (38,40); (41,47); (42,44); (45,51); (46,48); (49,55);
   (50,52); (57,58); (59,60); (5,6); (7,10); (9,12); (11,15); (13,14); (16,19); (17,18); (20,23);
   (21,22); (24,27); (25,26); (28,31); (29,30); (32,35); (33,34); (36,37); (38,39); (40,41);
   (42,43); (44,47); (45,46); (48,50); (49,51); (52,53); (54,55); (3,5); (6,8); (7,9); (10,12);
   (11,13); (14,15); (16,17); (18,19); (20,21); (22,23); (24,25); (26,27); (28,29); (30,31);
   (32,33); (34,35); (36,38); (37,39); (40,42); (41,43); (44,45); (46,47); (48,49); (50,51);
   (52,54); (53,55); (3,4); (5,6); (7,8); (9,10); (11,12); (13,14); (15,16); (17,18); (19,20);
   (21,22); (23,24); (25,26); (27,28); (29,30); (31,32); (33,34); (35,36); (37,38); (39,40);
   (41,42); (43,44); (45,46); (47,48); (49,50); (51,52); (53,54); (55,56)].
(** detail/sorting_network/sort63.h, index_pairs(). *)
Definition pairs63 : list (N * N) :=
  [(1,2); (3,10); (4,14); (5,8); (6,13); (7,12); (9,11); (15,28); (16,27); (17,30); (18,29); (19,23);
   (20,21); (22,26); (24,25); (31,44); (32,43); (33,46); (34,45); (35,39); (36,37); (38,42);
   (40,41); (47,60); (48,59); (49,62); (50,61); (51,55); (52,53); (54,58); (56,57); (0,14); (1,5);
   (2,8); (3,7); (6,9); (10,12); (11,13); (15,20); (16,22); (17,24); (18,19); (21,28); (23,29);
   (25,30); (26,27); (31,36); (32,38); (33,40); (34,35); (37,44); (39,45); (41,46); (42,43);
   (47,52); (48,54); (49,56); (50,51); (53,60); (55,61); (57,62); (58,59); (0,7); (1,6); (2,9);
   (4,10); (5,11); (8,13); (12,14); (15,16); (17,18); (19,20); (21,23); (22,24); (25,26); (27,28);
   (29,30); (31,32); (33,34); (35,36); (37,39); (38,40); (41,42); (43,44); (45,46); (47,48);
   (49,50); (51,52); (53,55); (54,56); (57,58); (59,60); (61,62); (0,6); (2,4); (3,5); (7,11);
   (8,10); (9,12); (13,14); (15,17); (16,18); (19,25); (20,26); (21,22); (23,24); (27,29); (28,30);
   (31,33); (32,34); (35,41); (36,42); (37,38); (39,40); (43,45); (44,46); (47,49); (48,50);
   (51,57); (52,58); (53,54); (55,56); (59,61); (60,62); (0,3); (1,2); (4,7); (5,9); (6,8); (10,11);
   (12,13); (15,47); (16,17); (18,27); (19,21); (20,22); (23,25); (24,26); (28,29); (32,33);
   (34,43); (35,37); (36,38); (39,41); (40,42); (44,45); (46,62); (48,49); (50,59); (51,53);
   (52,54); (55,57); (56,58); (60,61); (0,1); (2,3); (4,6); (7,9); (10,12); (11,13); (16,19);
   (17,21); (20,23); (22,25); (24,28); (26,29); (32,35); (33,37); (36,39); (38,41); (40,44);
   (42,45); (48,51); (49,53); (52,55); (54,57); (56,60); (58,61); (0,31); (1,2); (3,5); (8,10);
   (11,12); (14,61); (16,48); (17,19); (18,21); (24,27); (26,28); (29,45); (33,35); (34,37);
   (40,43); (42,44); (49,51); (50,53); (56,59); (58,60); (0,15); (1,32); (3,4); (5,6); (7,8);
   (9,10); (13,60); (14,29); (17,49); (18,20); (21,23); (22,24); (25,27); (28,44); (31,47); (34,36);
   (37,39); (38,40); (41,43); (45,61); (50,52); (53,55); (54,56); (57,59); (1,16); (2,3); (4,5);
   (6,7); (8,9); (10,11); (13,28); (15,31); (18,19); (20,21); (22,23); (24,25); (26,27); (29,45);
   (32,48); (34,35); (36,37); (38,39); (40,41); (42,43); (44,60); (50,51); (52,53); (54,55);
   (56,57); (58,59); (2,33); (4,51); (5,6); (7,8); (10,41); (11,30); (12,59); (16,32); (18,50);
   (19,35); (20,36); (21,22); (23,24); (25,57); (26,58); (27,43); (28,44); (37,38); (39,40);
   (53,54); (55,56); (2,17); (3,38); (4,19); (5,52); (6,53); (7,42); (8,39); (9,40); (10,25);
   (11,46); (12,27); (18,34); (21,37); (22,54); (23,55); (24,56); (30,62); (33,49); (35,51);
   (41,57); (43,59); (3,22); (4,15); (5,20); (6,21); (7,50); (8,23); (9,24); (12,19); (17,33);
   (25,41); (26,34); (27,43); (30,46); (36,52); (37,53); (38,54); (39,55); (40,56); (42,58);
   (45,57); (61,62); (1,4); (3,18); (5,16); (6,17); (7,26); (8,31); (9,32); (10,33); (11,38);
   (13,20); (14,21); (19,35); (23,39); (24,40); (25,49); (27,51); (28,52); (29,53); (30,54);
   (42,50); (43,55); (44,56); (46,58); (7,18); (8,15); (9,16); (10,17); (14,25); (19,31); (20,36);
   (21,37); (22,38); (23,47); (24,48); (29,49); (34,42); (35,39); (43,51); (44,52); (45,53);
   (46,54); (58,60); (2,8); (3,9); (11,22); (12,23); (13,24); (20,32); (21,33); (26,34); (27,47);
   (28,48); (30,38); (36,40); (37,41); (42,50); (53,59); (54,56); (60,61); (2,4); (3,8); (11,26);
   (12,19); (13,20); (14,21); (22,34); (23,31); (24,32); (25,33); (27,35); (28,36); (29,37);
   (30,42); (38,50); (39,47); (40,48); (41,49); (56,57); (58,59); (11,18); (12,15); (13,16);
   (14,17); (19,23); (20,24); (21,25); (22,26); (27,31); (28,32); (29,33); (30,34); (35,39);
   (36,40); (37,41); (38,42); (43,47); (44,48); (45,49); (46,50); (56,58); (57,59); (6,12); (7,13);
   (10,15); (11,16); (14,19); (17,23); (18,20); (21,27); (22,24); (25,31); (26,28); (29,35);
   (30,32); (33,39); (34,36); (37,43); (38,40); (41,47); (42,44); (45,51); (46,48); (49,55);
   (50,52); (57,58); (59,60); (5,6); (7,10); (9,12); (11,15); (13,14); (16,19); (17,18); (20,23);
   (21,22); (24,27); (25,26); (28,31); (29,30); (32,35); (33,34); (36,37); (38,39); (40,41);
   (42,43); (44,47); (45,46); (48,50); (49,51); (52,53); (54,55); (3,5); (6,8); (7,9); (10,12);
   (11,13); (14,15); (16,17); (18,19); (20,21); (22,23); (24,25); (26,27); (28,29); (30,31);
   (32,33); (34,35); (36,38); (37,39); (40,42); (41,43); (44,45); (46,47); (48,49); (50,51);
   (52,54); (53,55); (3,4); (5,6); (7,8); (9,10); (11,12); (13,14); (15,16); (17,18); (19,20);
   (21,22); (23,24); (25,26); (27,28); (29,30); (31,32); (33,34); (35,36); (37,38); (39,40);
   (41,42); (43,44); (45,46); (47,48); (49,50); (51,52); (53,54); (55,56)].

(** detail/sorting_network/sort64.h, operator(). *)
Definition swaps64 : list (N * N) :=
  [(0,2); (1,3); (4,6); (5,7); (8,10); (9,11); (12,14); (13,15); (16,18); (17,19); (20,22); (21,23);
   (24,26); (25,27); (28,30); (29,31); (32,34); (33,35); (36,38); (37,39); (40,42); (41,43);
   (44,46); (45,47); (48,50); (49,51); (52,54); (53,55); (56,58); (57,59); (60,62); (61,63); (0,1);
   (2,3); (4,5); (6,7); (8,9); (10,11); (12,13); (14,15); (16,17); (18,19); (20,21); (22,23);
   (24,25); (26,27); (28,29); (30,31); (32,33); (34,35); (36,37); (38,39); (40,41); (42,43);
   (44,45); (46,47); (48,49); (50,51); (52,53); (54,55); (56,57); (58,59); (60,61); (62,63); (0,52);
   (1,2); (3,55); (4,48); (5,6); (7,51); (8,60); (9,10); (11,63); (12,56); (13,14); (15,59);
   (16,32); (17,18); (19,35); (20,24); (21,22); (23,27); (25,26); (28,44); (29,30); (31,47);
   (33,34); (36,40); (37,38); (39,43); (41,42); (45,46); (49,50); (53,54); (57,58); (61,62); (0,20);
   (1,53); (2,54); (3,23); (4,28); (5,49); (6,50); (7,31); (8,36); (9,61); (10,62); (11,39);
   (12,16); (13,57); (14,58); (15,19); (17,33); (18,34); (21,25); (22,26); (24,52); (27,55);
   (29,45); (30,46); (32,56); (35,59); (37,41); (38,42); (40,60); (43,63); (44,48); (47,51); (0,4);
   (1,21); (2,22); (3,7); (5,29); (6,30); (8,12); (9,37); (10,38); (11,15); (13,17); (14,18);
   (16,20); (19,23); (24,32); (25,53); (26,54); (27,35); (28,36); (31,39); (33,57); (34,58);
   (40,44); (41,61); (42,62); (43,47); (45,49); (46,50); (48,52); (51,55); (56,60); (59,63); (0,8);
   (1,5); (2,6); (3,11); (4,12); (7,15); (9,13); (10,14); (16,40); (17,21); (18,22); (19,43);
   (20,44); (23,47); (24,28); (25,33); (26,34); (27,31); (29,37); (30,38); (32,36); (35,39);
   (41,45); (42,46); (48,56); (49,53); (50,54); (51,59); (52,60); (55,63); (57,61); (58,62); (1,9);
   (2,10); (4,8); (5,13); (6,14); (7,11); (12,48); (15,51); (16,24); (17,41); (18,42); (19,27);
   (20,28); (21,45); (22,46); (23,31); (25,29); (26,30); (32,40); (33,37); (34,38); (35,43);
   (36,44); (39,47); (49,57); (50,58); (52,56); (53,61); (54,62); (55,59); (4,16); (5,9); (6,10);
   (7,19); (8,24); (11,27); (13,49); (14,50); (17,25); (18,26); (20,32); (21,29); (22,30); (23,35);
   (28,40); (31,43); (33,41); (34,42); (36,52); (37,45); (38,46); (39,55); (44,56); (47,59);
   (53,57); (54,58); (1,4); (5,17); (6,18); (8,16); (9,25); (10,26); (11,19); (12,24); (15,27);
   (21,33); (22,34); (29,41); (30,42); (36,48); (37,53); (38,54); (39,51); (44,52); (45,57);
   (46,58); (47,55); (59,62); (2,8); (9,17); (10,18); (12,20); (13,25); (14,26); (15,23); (24,32);
   (27,35); (28,36); (31,39); (37,49); (38,50); (40,48); (43,51); (45,53); (46,54); (55,61); (2,4);
   (12,16); (13,21); (14,22); (15,19); (20,24); (23,27); (25,33); (26,34); (28,32); (29,37);
   (30,38); (31,35); (36,40); (39,43); (41,49); (42,50); (44,48); (47,51); (59,61); (4,16); (5,20);
   (10,40); (13,17); (14,18); (21,25); (22,26); (23,53); (24,28); (27,31); (29,33); (30,34);
   (32,36); (35,39); (37,41); (38,42); (43,58); (45,49); (46,50); (47,59); (3,17); (6,36); (7,21);
   (8,32); (9,24); (11,41); (13,28); (14,44); (15,45); (18,48); (19,49); (22,52); (25,29); (26,30);
   (27,57); (31,55); (33,37); (34,38); (35,50); (39,54); (42,56); (46,60); (6,20); (8,16); (10,24);
   (11,25); (14,28); (15,29); (17,33); (18,32); (21,37); (22,36); (26,42); (27,41); (30,46);
   (31,45); (34,48); (35,49); (38,52); (39,53); (43,57); (47,55); (3,18); (5,8); (6,12); (7,22);
   (15,21); (17,32); (19,33); (23,37); (26,40); (30,44); (31,46); (41,56); (42,48); (45,60);
   (51,57); (55,58); (3,16); (7,20); (11,26); (18,24); (19,25); (22,28); (23,29); (27,33); (30,36);
   (34,40); (35,41); (37,52); (38,44); (39,45); (43,56); (47,60); (3,9); (7,13); (10,16); (11,17);
   (14,20); (15,30); (19,34); (21,36); (23,38); (25,40); (26,32); (27,42); (29,44); (31,37);
   (33,48); (43,49); (46,52); (47,53); (50,56); (54,60); (3,8); (7,10); (9,12); (11,18); (13,14);
   (15,24); (17,22); (19,28); (21,26); (23,25); (27,34); (29,36); (30,32); (31,33); (35,44);
   (37,42); (38,40); (39,48); (41,46); (45,52); (49,50); (51,54); (53,56); (55,60); (3,6); (7,12);
   (11,16); (15,17); (18,20); (19,24); (21,22); (23,30); (25,32); (26,28); (27,29); (31,38);
   (33,40); (34,36); (35,37); (39,44); (41,42); (43,45); (46,48); (47,52); (51,56); (57,60); (3,5);
   (6,8); (7,9); (10,12); (11,13); (14,16); (15,18); (17,20); (19,21); (22,24); (23,26); (25,28);
   (27,30); (29,32); (31,34); (33,36); (35,38); (37,40); (39,41); (42,44); (43,46); (45,48);
   (47,49); (50,52); (51,53); (54,56); (55,57); (58,60); (3,4); (7,8); (11,12); (13,14); (15,16);
   (17,18); (19,20); (21,22); (23,24); (25,26); (27,28); (29,30); (31,32); (33,34); (35,36);
   (37,38); (39,40); (41,42); (43,44); (45,46); (47,48); (49,50); (51,52); (55,56); (59,60)].
(** detail/sorting_network/sort64.h, index_pairs(). *)
Definition pairs64 : list (N * N) :=
  [(0,2); (1,3); (4,6); (5,7); (8,10); (9,11); (12,14); (13,15); (16,18); (17,19); (20,22); (21,23);
   (24,26); (25,27); (28,30); (29,31); (32,34); (33,35); (36,38); (37,39); (40,42); (41,43);
   (44,46); (45,47); (48,50); (49,51); (52,54); (53,55); (56,58); (57,59); (60,62); (61,63); (0,1);
   (2,3); (4,5); (6,7); (8,9); (10,11); (12,13); (14,15); (16,17); (18,19); (20,21); (22,23);
   (24,25); (26,27); (28,29); (30,31); (32,33); (34,35); (36,37); (38,39); (40,41); (42,43);
   (44,45); (46,47); (48,49); (50,51); (52,53); (54,55); (56,57); (58,59); (60,61); (62,63); (0,52);
   (1,2); (3,55); (4,48); (5,6); (7,51); (8,60); (9,10); (11,63); (12,56); (13,14); (15,59);
   (16,32); (17,18); (19,35); (20,24); (21,22); (23,27); (25,26); (28,44); (29,30); (31,47);
   (33,34); (36,40); (37,38); (39,43); (41,42); (45,46); (49,50); (53,54); (57,58); (61,62); (0,20);
   (1,53); (2,54); (3,23); (4,28); (5,49); (6,50); (7,31); (8,36); (9,61); (10,62); (11,39);
   (12,16); (13,57); (14,58); (15,19); (17,33); (18,34); (21,25); (22,26); (24,52); (27,55);
   (29,45); (30,46); (32,56); (35,59); (37,41); (38,42); (40,60); (43,63); (44,48); (47,51); (0,4);
   (1,21); (2,22); (3,7); (5,29); (6,30); (8,12); (9,37); (10,38); (11,15); (13,17); (14,18);
   (16,20); (19,23); (24,32); (25,53); (26,54); (27,35); (28,36); (31,39); (33,57); (34,58);
   (40,44); (41,61); (42,62); (43,47); (45,49); (46,50); (48,52); (51,55); (56,60); (59,63); (0,8);
   (1,5); (2,6); (3,11); (4,12); (7,15); (9,13); (10,14); (16,40); (17,21); (18,22); (19,43);
   (20,44); (23,47); (24,28); (25,33); (26,34); (27,31); (29,37); (30,38); (32,36); (35,39);
   (41,45); (42,46); (48,56); (49,53); (50,54); (51,59); (52,60); (55,63); (57,61); (58,62); (1,9);
   (2,10); (4,8); (5,13); (6,14); (7,11); (12,48); (15,51); (16,24); (17,41); (18,42); (19,27);
   (20,28); (21,45); (22,46); (23,31); (25,29); (26,30); (32,40); (33,37); (34,38); (35,43);
   (36,44); (39,47); (49,57); (50,58); (52,56); (53,61); (54,62); (55,59); (4,16); (5,9); (6,10);
   (7,19); (8,24); (11,27); (13,49); (14,50); (17,25); (18,26); (20,32); (21,29); (22,30); (23,35);
   (28,40); (31,43); (33,41); (34,42); (36,52); (37,45); (38,46); (39,55); (44,56); (47,59);
   (53,57); (54,58); (1,4); (5,17); (6,18); (8,16); (9,25); (10,26); (11,19); (12,24); (15,27);
   (21,33); (22,34); (29,41); (30,42); (36,48); (37,53); (38,54); (39,51); (44,52); (45,57);
   (46,58); (47,55); (59,62); (2,8); (9,17); (10,18); (12,20); (13,25); (14,26); (15,23); (24,32);
   (27,35); (28,36); (31,39); (37,49); (38,50); (40,48); (43,51); (45,53); (46,54); (55,61); (2,4);
   (12,16); (13,21); (14,22); (15,19); (20,24); (23,27); (25,33); (26,34); (28,32); (29,37);
   (30,38); (31,35); (36,40); (39,43); (41,49); (42,50); (44,48); (47,51); (59,61); (4,16); (5,20);
   (10,40); (13,17); (14,18); (21,25); (22,26); (23,53); (24,28); (27,31); (29,33); (30,34);
   (32,36); (35,39); (37,41); (38,42); (43,58); (45,49); (46,50); (47,59); (3,17); (6,36); (7,21);
   (8,32); (9,24); (11,41); (13,28); (14,44); (15,45); (18,48); (19,49); (22,52); (25,29); (26,30);
   (27,57); (31,55); (33,37); (34,38); (35,50); (39,54); (42,56); (46,60); (6,20); (8,16); (10,24);
   (11,25); (14,28); (15,29); (17,33); (18,32); (21,37); (22,36); (26,42); (27,41); (30,46);
   (31,45); (34,48); (35,49); (38,52); (39,53); (43,57); (47,55); (3,18); (5,8); (6,12); (7,22);
   (15,21); (17,32); (19,33); (23,37); (26,40); (30,44); (31,46); (41,56); (42,48); (45,60);
   (51,57); (55,58); (3,16); (7,20); (11,26); (18,24); (19,25); (22,28); (23,29); (27,33); (30,36);
   (34,40); (35,41); (37,52); (38,44); (39,45); (43,56); (47,60); (3,9); (7,13); (10,16); (11,17);
   (14,20); (15,30); (19,34); (21,36); (23,38); (25,40); (26,32); (27,42); (29,44); (31,37);
   (33,48); (43,49); (46,52); (47,53); (50,56); (54,60); (3,8); (7,10); (9,12); (11,18); (13,14);
   (15,24); (17,22); (19,28); (21,26); (23,25); (27,34); (29,36); (30,32); (31,33); (35,44);
   (37,42); (38,40); (39,48); (41,46); (45,52); (49,50); (51,54); (53,56); (55,60); (3,6); (7,12);
   (11,16); (15,17); (18,20); (19,24); (21,22); (23,30); (25,32); (26,28); (27,29); (31,38);
   (33,40); (34,36); (35,37); (39,44); (41,42); (43,45); (46,48); (47,52); (51,56); (57,60); (3,5);
   (6,8); (7,9); (10,12); (11,13); (14,16); (15,18); (17,20); (19,21); (22,24); (23,26); (25,28);
   (27,30); (29,32); (31,34); (33,36); (35,38); (37,40); (39,41); (42,44); (43,46); (45,48);
   (47,49); (50,52); (51,53); (54,56); (55,57); (58,60); (3,4); (7,8); (11,12); (13,14); (15,16);
   (17,18); (19,20); (21,22); (23,24); (25,26); (27,28); (29,30); (31,32); (33,34); (35,36);
   (37,38); (39,40); (41,42); (43,44); (45,46); (47,48); (49,50); (51,52); (55,56); (59,60)].

(** swaps of sorting_network_sorter<n>; no entry for sizes 0 and 1 (empty sorter) and above 64
    (no specialization). *)
Definition network_swaps (n : nat) : list (N * N) :=
  match n with
  | 2%nat => swaps2
  | 3%nat => swaps3
  | 4%nat => swaps4
  | 5%nat => swaps5
  | 6%nat => swaps6
  | 7%nat => swaps7
  | 8%nat => swaps8
  | 9%nat => swaps9
  | 10%nat => swaps10
  | 11%nat => swaps11
  | 12%nat => swaps12
  | 13%nat => swaps13
  | 14%nat => swaps14
  | 15%nat => swaps15
  | 16%nat => swaps16
  | 17%nat => swaps17
  | 18%nat => swaps18
  | 19%nat => swaps19
  | 20%nat => swaps20
  | 21%nat => swaps21
  | 22%nat => swaps22
  | 23%nat => swaps23
  | 24%nat => swaps24
  | 25%nat => swaps25
  | 26%nat => swaps26
  | 27%nat => swaps27
  | 28%nat => swaps28
  | 29%nat => swaps29
  | 30%nat => swaps30
  | 31%nat => swaps31
  | 32%nat => swaps32
  | 33%nat => swaps33
  | 34%nat => swaps34
  | 35%nat => swaps35
  | 36%nat => swaps36
  | 37%nat => swaps37
  | 38%nat => swaps38
  | 39%nat => swaps39
  | 40%nat => swaps40
  | 41%nat => swaps41
  | 42%nat => swaps42
  | 43%nat => swaps43
  | 44%nat => swaps44
  | 45%nat => swaps45
  | 46%nat => swaps46
  | 47%nat => swaps47
  | 48%nat => swaps48
  | 49%nat => swaps49
  | 50%nat => swaps50
  | 51%nat => swaps51
  | 52%nat => swaps52
  | 53%nat => swaps53
  | 54%nat => swaps54
  | 55%nat => swaps55
  | 56%nat => swaps56
  | 57%nat => swaps57
  | 58%nat => swaps58
  | 59%nat => swaps59
  | 60%nat => swaps60
  | 61%nat => swaps61
  | 62%nat => swaps62
  | 63%nat => swaps63
  | 64%nat => swaps64
  | _ => []
  end.

(** pairs of sorting_network_sorter<n>; no entry for sizes 0 and 1 (empty sorter) and above 64
    (no specialization). *)
Definition network_pairs (n : nat) : list (N * N) :=
  match n with
  | 2%nat => pairs2
  | 3%nat => pairs3
  | 4%nat => pairs4
  | 5%nat => pairs5
  | 6%nat => pairs6
  | 7%nat => pairs7
  | 8%nat => pairs8
  | 9%nat => pairs9
  | 10%nat => pairs10
  | 11%nat => pairs11
  | 12%nat => pairs12
  | 13%nat => pairs13
  | 14%nat => pairs14
  | 15%nat => pairs15
  | 16%nat => pairs16
  | 17%nat => pairs17
  | 18%nat => pairs18
  | 19%nat => pairs19
  | 20%nat => pairs20
  | 21%nat => pairs21
  | 22%nat => pairs22
  | 23%nat => pairs23
  | 24%nat => pairs24
  | 25%nat => pairs25
  | 26%nat => pairs26
  | 27%nat => pairs27
  | 28%nat => pairs28
  | 29%nat => pairs29
  | 30%nat => pairs30
  | 31%nat => pairs31
  | 32%nat => pairs32
  | 33%nat => pairs33
  | 34%nat => pairs34
  | 35%nat => pairs35
  | 36%nat => pairs36
  | 37%nat => pairs37
  | 38%nat => pairs38
  | 39%nat => pairs39
  | 40%nat => pairs40
  | 41%nat => pairs41
  | 42%nat => pairs42
  | 43%nat => pairs43
  | 44%nat => pairs44
  | 45%nat => pairs45
  | 46%nat => pairs46
  | 47%nat => pairs47
  | 48%nat => pairs48
  | 49%nat => pairs49
  | 50%nat => pairs50
  | 51%nat => pairs51
  | 52%nat => pairs52
  | 53%nat => pairs53
  | 54%nat => pairs54
  | 55%nat => pairs55
  | 56%nat => pairs56
  | 57%nat => pairs57
  | 58%nat => pairs58
  | 59%nat => pairs59
  | 60%nat => pairs60
  | 61%nat => pairs61
  | 62%nat => pairs62
  | 63%nat => pairs63
  | 64%nat => pairs64
  | _ => []
  end.
