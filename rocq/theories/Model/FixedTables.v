(** The bodies of the fixed-size sorters, copied statement by statement from the source by
    tools/gen_fixed.py. *)
From Coq Require Import List.
From Verif Require Import Model.Straight.
Import ListNotations.

(** detail/low_comparisons/sort2.h, operator(). *)
Definition low_comparisons2 : code :=
  SwapIf 0 1 (
  End).

(** detail/low_comparisons/sort3.h, operator(). *)
Definition low_comparisons3 : code :=
  If 1 0
    (If 2 0
       (If 2 1
          (Swap 0 2 (
           End))
          (RotL 3 0 (
           End))
        (End))
       (Swap 0 1 (
        End))
     (End))
    (If 2 1
       (If 2 0
          (RotR 3 0 (
           End))
          (Swap 1 2 (
           End))
        (End))
       (End)
     (End))
  (End).

(** detail/low_comparisons/sort5.h, operator(). *)
Definition low_comparisons5 : code :=
  SwapIf 0 1 (
  SwapIf 2 3 (
  If 3 1
    (Swap 0 2 (
     Swap 1 3 (
     End)))
    (End)
  (If 4 1
     (If 4 0
        (RotR 5 0 (
         End))
        (RotR 4 1 (
         End))
      (End))
     (If 4 3
        (RotR 3 2 (
         End))
        (If 2 0
           (RotR 3 0 (
            End))
           (SwapIf 1 2 (
            End))
         (Return))
      (End))
   (If 3 1
      (If 3 0
         (RotR 4 0 (
          End))
         (RotR 3 1 (
          End))
       (End))
      (SwapIf 2 3 (
       End))
    (End))))).

(** detail/low_comparisons/sort6.h, operator(). *)
Definition low_comparisons6 : code :=
  SwapIf 0 1 (
  SwapIf 2 3 (
  SwapIf 4 5 (
  If 3 1
    (Swap 0 2 (
     Swap 1 3 (
     End)))
    (End)
  (If 5 3
     (If 5 1
        (Cycle [5; 3; 1] (
         Cycle [4; 2; 0] (
         End)))
        (Swap 2 4 (
         Swap 3 5 (
         End)))
      (End))
     (End)
   (If 4 1
      (If 4 0
         (RotR 5 0 (
          End))
         (RotR 4 1 (
          End))
       (End))
      (If 4 3
         (RotR 3 2 (
          End))
         (If 2 0
            (RotR 3 0 (
             End))
            (SwapIf 1 2 (
             End))
          (Return))
       (End))
    (If 3 1
       (If 3 0
          (RotR 4 0 (
           End))
          (RotR 3 1 (
           End))
        (End))
       (SwapIf 2 3 (
        End))
     (End))))))).

(** detail/low_comparisons/sort9.h, operator(). *)
Definition low_comparisons9 : code :=
  SwapIf 0 1 (
  SwapIf 2 3 (
  SwapIf 4 5 (
  SwapIf 6 7 (
  If 3 1
    (Swap 0 2 (
     Swap 1 3 (
     End)))
    (End)
  (If 7 5
     (Swap 4 6 (
      Swap 5 7 (
      End)))
     (End)
   (If 7 3
      (Swap 0 4 (
       Swap 1 5 (
       Swap 2 6 (
       Swap 3 7 (
       End)))))
      (End)
    (If 5 1
       (If 5 0
          (Cycle [5; 3; 1] (
           Cycle [4; 2; 0] (
           If 4 2
             (If 4 1
                (If 4 0
                   (RotR 5 0 (
                    End))
                   (RotR 4 1 (
                    End))
                 (End))
                (RotR 3 2 (
                 End))
              (End))
             (If 4 3
                (RotR 2 3 (
                 End))
                (End)
              (End))
           (Cycle [6; 7; 8] (
            If 7 3
              (If 7 1
                 (If 7 0
                    (RotR 8 0 (
                     End))
                    (RotR 7 1 (
                     End))
                  (End))
                 (If 7 2
                    (RotR 6 2 (
                     End))
                    (RotR 5 3 (
                     End))
                  (End))
               (End))
              (If 7 5
                 (If 7 4
                    (RotR 4 4 (
                     End))
                    (RotR 3 5 (
                     End))
                  (End))
                 (If 7 6
                    (RotR 2 6 (
                     End))
                    (Cycle [8; 7; 6] (
                     If 6 3
                       (If 6 1
                          (If 6 0
                             (RotR 7 0 (
                              End))
                             (RotR 6 1 (
                              End))
                           (End))
                          (If 6 2
                             (RotR 5 2 (
                              End))
                             (RotR 4 3 (
                              End))
                           (End))
                        (End))
                       (If 6 5
                          (If 6 4
                             (RotR 3 4 (
                              End))
                             (RotR 2 5 (
                              End))
                           (End))
                          (End)
                        (End))
                     (Return)))
                  (End))
               (End))
            (Swap 7 8 (
             If 7 3
               (If 7 1
                  (If 7 0
                     (RotR 8 0 (
                      End))
                     (RotR 7 1 (
                      End))
                   (End))
                  (If 7 2
                     (RotR 6 2 (
                      End))
                     (RotR 5 3 (
                      End))
                   (End))
                (End))
               (If 7 5
                  (If 7 4
                     (RotR 4 4 (
                      End))
                     (RotR 3 5 (
                      End))
                   (End))
                  (If 7 6
                     (RotR 2 6 (
                      End))
                     (End)
                   (End))
                (End))
             (End))))))))
          (Cycle [5; 3; 1; 4; 2] (
           SwapIf 0 1 (
           If 4 2
             (If 4 1
                (If 4 0
                   (RotR 5 0 (
                    End))
                   (RotR 4 1 (
                    End))
                 (End))
                (RotR 3 2 (
                 End))
              (End))
             (If 4 3
                (RotR 2 3 (
                 End))
                (End)
              (End))
           (Cycle [6; 7; 8] (
            If 7 3
              (If 7 1
                 (If 7 0
                    (RotR 8 0 (
                     End))
                    (RotR 7 1 (
                     End))
                  (End))
                 (If 7 2
                    (RotR 6 2 (
                     End))
                    (RotR 5 3 (
                     End))
                  (End))
               (End))
              (If 7 5
                 (If 7 4
                    (RotR 4 4 (
                     End))
                    (RotR 3 5 (
                     End))
                  (End))
                 (If 7 6
                    (RotR 2 6 (
                     End))
                    (Cycle [8; 7; 6] (
                     If 6 3
                       (If 6 1
                          (If 6 0
                             (RotR 7 0 (
                              End))
                             (RotR 6 1 (
                              End))
                           (End))
                          (If 6 2
                             (RotR 5 2 (
                              End))
                             (RotR 4 3 (
                              End))
                           (End))
                        (End))
                       (If 6 5
                          (If 6 4
                             (RotR 3 4 (
                              End))
                             (RotR 2 5 (
                              End))
                           (End))
                          (End)
                        (End))
                     (Return)))
                  (End))
               (End))
            (Swap 7 8 (
             If 7 3
               (If 7 1
                  (If 7 0
                     (RotR 8 0 (
                      End))
                     (RotR 7 1 (
                      End))
                   (End))
                  (If 7 2
                     (RotR 6 2 (
                      End))
                     (RotR 5 3 (
                      End))
                   (End))
                (End))
               (If 7 5
                  (If 7 4
                     (RotR 4 4 (
                      End))
                     (RotR 3 5 (
                      End))
                   (End))
                  (If 7 6
                     (RotR 2 6 (
                      End))
                     (End)
                   (End))
                (End))
             (End))))))))
        (End))
       (If 5 3
          (Swap 2 4 (
           Swap 3 5 (
           End)))
          (End)
        (SetFlag true (
         If 4 1
           (If 4 0
              (RotR 5 0 (
               End))
              (RotR 4 1 (
               End))
            (End))
           (If 4 3
              (RotR 3 2 (
               End))
              (SetFlag false (
               If 2 1
                 (If 2 0
                    (RotR 3 0 (
                     End))
                    (RotR 2 1 (
                     End))
                  (End))
                 (End)
               (End)))
            (End))
         (IfFlag
            (If 3 1
               (If 3 0
                  (RotR 4 0 (
                   End))
                  (RotR 3 1 (
                   End))
                (End))
               (If 3 2
                  (RotR 2 2 (
                   End))
                  (End)
                (End))
             (End))
          (Cycle [6; 7; 8] (
           If 7 3
             (If 7 1
                (If 7 0
                   (RotR 8 0 (
                    End))
                   (RotR 7 1 (
                    End))
                 (End))
                (If 7 2
                   (RotR 6 2 (
                    End))
                   (RotR 5 3 (
                    End))
                 (End))
              (End))
             (If 7 5
                (If 7 4
                   (RotR 4 4 (
                    End))
                   (RotR 3 5 (
                    End))
                 (End))
                (If 7 6
                   (RotR 2 6 (
                    End))
                   (Cycle [8; 7; 6] (
                    If 6 3
                      (If 6 1
                         (If 6 0
                            (RotR 7 0 (
                             End))
                            (RotR 6 1 (
                             End))
                          (End))
                         (If 6 2
                            (RotR 5 2 (
                             End))
                            (RotR 4 3 (
                             End))
                          (End))
                       (End))
                      (If 6 5
                         (If 6 4
                            (RotR 3 4 (
                             End))
                            (RotR 2 5 (
                             End))
                          (End))
                         (End)
                       (End))
                    (Return)))
                 (End))
              (End))
           (Swap 7 8 (
            If 7 3
              (If 7 1
                 (If 7 0
                    (RotR 8 0 (
                     End))
                    (RotR 7 1 (
                     End))
                  (End))
                 (If 7 2
                    (RotR 6 2 (
                     End))
                    (RotR 5 3 (
                     End))
                  (End))
               (End))
              (If 7 5
                 (If 7 4
                    (RotR 4 4 (
                     End))
                    (RotR 3 5 (
                     End))
                  (End))
                 (If 7 6
                    (RotR 2 6 (
                     End))
                    (End)
                  (End))
               (End))
            (End)))))))))
     (End)))))))).

(** detail/low_comparisons/sort12.h, operator(). *)
Definition low_comparisons12 : code :=
  SwapIf 0 11 (
  If 1 0
    (Swap 0 1 (
     If 2 1
       (Swap 1 2 (
        If 3 2
          (Swap 2 3 (
           If 4 3
             (Swap 3 4 (
              If 5 4
                (Swap 4 5 (
                 If 6 5
                   (Swap 5 6 (
                    If 7 6
                      (Swap 6 7 (
                       If 8 7
                         (Swap 7 8 (
                          If 9 8
                            (Swap 8 9 (
                             SwapIf 9 10 (
                             End)))
                            (End)
                          (End)))
                         (End)
                       (End)))
                      (End)
                    (End)))
                   (End)
                 (End)))
                (End)
              (End)))
             (End)
           (End)))
          (End)
        (End)))
       (End)
     (End)))
    (End)
  (If 11 10
     (Swap 10 11 (
      If 10 9
        (Swap 9 10 (
         If 9 8
           (Swap 8 9 (
            If 8 7
              (Swap 7 8 (
               If 7 6
                 (Swap 6 7 (
                  If 6 5
                    (Swap 5 6 (
                     If 5 4
                       (Swap 4 5 (
                        If 4 3
                          (Swap 3 4 (
                           If 3 2
                             (Swap 2 3 (
                              SwapIf 1 2 (
                              End)))
                             (End)
                           (End)))
                          (End)
                        (End)))
                       (End)
                     (End)))
                    (End)
                  (End)))
                 (End)
               (End)))
              (End)
            (End)))
           (End)
         (End)))
        (End)
      (End)))
     (End)
   (End))).

(** detail/low_comparisons/sort13.h, operator(). *)
Definition low_comparisons13 : code :=
  SwapIf 0 12 (
  If 1 0
    (Swap 0 1 (
     If 2 1
       (Swap 1 2 (
        If 3 2
          (Swap 2 3 (
           If 4 3
             (Swap 3 4 (
              If 5 4
                (Swap 4 5 (
                 If 6 5
                   (Swap 5 6 (
                    If 7 6
                      (Swap 6 7 (
                       If 8 7
                         (Swap 7 8 (
                          If 9 8
                            (Swap 8 9 (
                             If 10 9
                               (Swap 9 10 (
                                SwapIf 10 11 (
                                End)))
                               (End)
                             (End)))
                            (End)
                          (End)))
                         (End)
                       (End)))
                      (End)
                    (End)))
                   (End)
                 (End)))
                (End)
              (End)))
             (End)
           (End)))
          (End)
        (End)))
       (End)
     (End)))
    (End)
  (If 12 11
     (Swap 11 12 (
      If 11 10
        (Swap 10 11 (
         If 10 9
           (Swap 9 10 (
            If 9 8
              (Swap 8 9 (
               If 8 7
                 (Swap 7 8 (
                  If 7 6
                    (Swap 6 7 (
                     If 6 5
                       (Swap 5 6 (
                        If 5 4
                          (Swap 4 5 (
                           If 4 3
                             (Swap 3 4 (
                              If 3 2
                                (Swap 2 3 (
                                 SwapIf 1 2 (
                                 End)))
                                (End)
                              (End)))
                             (End)
                           (End)))
                          (End)
                        (End)))
                       (End)
                     (End)))
                    (End)
                  (End)))
                 (End)
               (End)))
              (End)
            (End)))
           (End)
         (End)))
        (End)
      (End)))
     (End)
   (End))).

(** detail/front_inserter/inserter2.h, operator(). *)
Definition front_inserter2 : code :=
  If 1 0
    (RotL 2 0 (
     End))
    (End)
  (End).

(** detail/front_inserter/inserter3.h, operator(). *)
Definition front_inserter3 : code :=
  If 1 0
    (If 2 0
       (RotL 3 0 (
        End))
       (RotL 2 0 (
        End))
     (End))
    (End)
  (End).

(** detail/front_inserter/inserter4.h, operator(). *)
Definition front_inserter4 : code :=
  If 2 0
    (If 3 0
       (RotL 4 0 (
        End))
       (RotL 3 0 (
        End))
     (End))
    (If 1 0
       (RotL 2 0 (
        End))
       (End)
     (End))
  (End).

(** detail/front_inserter/inserter5.h, operator(). *)
Definition front_inserter5 : code :=
  If 2 0
    (If 3 0
       (If 4 0
          (RotL 5 0 (
           End))
          (RotL 4 0 (
           End))
        (End))
       (RotL 3 0 (
        End))
     (End))
    (If 1 0
       (RotL 2 0 (
        End))
       (End)
     (End))
  (End).

(** detail/front_inserter/inserter6.h, operator(). *)
Definition front_inserter6 : code :=
  If 3 0
    (If 4 0
       (If 5 0
          (RotL 6 0 (
           End))
          (RotL 5 0 (
           End))
        (End))
       (RotL 4 0 (
        End))
     (End))
    (If 2 0
       (RotL 3 0 (
        End))
       (If 1 0
          (RotL 2 0 (
           End))
          (End)
        (End))
     (End))
  (End).

(** detail/front_inserter/inserter7.h, operator(). *)
Definition front_inserter7 : code :=
  If 3 0
    (If 5 0
       (If 6 0
          (RotL 7 0 (
           End))
          (RotL 6 0 (
           End))
        (End))
       (If 4 0
          (RotL 5 0 (
           End))
          (RotL 4 0 (
           End))
        (End))
     (End))
    (If 2 0
       (RotL 3 0 (
        End))
       (If 1 0
          (RotL 2 0 (
           End))
          (End)
        (End))
     (End))
  (End).

(** detail/front_inserter/inserter8.h, operator(). *)
Definition front_inserter8 : code :=
  If 4 0
    (If 6 0
       (If 7 0
          (RotL 8 0 (
           End))
          (RotL 7 0 (
           End))
        (End))
       (If 5 0
          (RotL 6 0 (
           End))
          (RotL 5 0 (
           End))
        (End))
     (End))
    (If 2 0
       (If 3 0
          (RotL 4 0 (
           End))
          (RotL 3 0 (
           End))
        (End))
       (If 1 0
          (RotL 2 0 (
           End))
          (End)
        (End))
     (End))
  (End).

(** detail/front_inserter/inserter9.h, operator(). *)
Definition front_inserter9 : code :=
  If 4 0
    (If 6 0
       (If 7 0
          (If 8 0
             (RotL 9 0 (
              End))
             (RotL 8 0 (
              End))
           (End))
          (RotL 7 0 (
           End))
        (End))
       (If 5 0
          (RotL 6 0 (
           End))
          (RotL 5 0 (
           End))
        (End))
     (End))
    (If 2 0
       (If 3 0
          (RotL 4 0 (
           End))
          (RotL 3 0 (
           End))
        (End))
       (If 1 0
          (RotL 2 0 (
           End))
          (End)
        (End))
     (End))
  (End).

(** detail/front_inserter/inserter10.h, operator(). *)
Definition front_inserter10 : code :=
  If 5 0
    (If 7 0
       (If 8 0
          (If 9 0
             (RotL 10 0 (
              End))
             (RotL 9 0 (
              End))
           (End))
          (RotL 8 0 (
           End))
        (End))
       (If 6 0
          (RotL 7 0 (
           End))
          (RotL 6 0 (
           End))
        (End))
     (End))
    (If 3 0
       (If 4 0
          (RotL 5 0 (
           End))
          (RotL 4 0 (
           End))
        (End))
       (If 2 0
          (RotL 3 0 (
           End))
          (If 1 0
             (RotL 2 0 (
              End))
             (End)
           (End))
        (End))
     (End))
  (End).

(** detail/front_inserter/inserter11.h, operator(). *)
Definition front_inserter11 : code :=
  If 5 0
    (If 8 0
       (If 9 0
          (If 10 0
             (RotL 11 0 (
              End))
             (RotL 10 0 (
              End))
           (End))
          (RotL 9 0 (
           End))
        (End))
       (If 7 0
          (RotL 8 0 (
           End))
          (If 6 0
             (RotL 7 0 (
              End))
             (RotL 6 0 (
              End))
           (End))
        (End))
     (End))
    (If 3 0
       (If 4 0
          (RotL 5 0 (
           End))
          (RotL 4 0 (
           End))
        (End))
       (If 2 0
          (RotL 3 0 (
           End))
          (If 1 0
             (RotL 2 0 (
              End))
             (End)
           (End))
        (End))
     (End))
  (End).

(** detail/low_moves/sort3.h, operator(). *)
Definition low_moves3 : code :=
  If 1 0
    (If 2 0
       (If 2 1
          (Swap 0 2 (
           End))
          (RotL 3 0 (
           End))
        (End))
       (Swap 0 1 (
        End))
     (End))
    (If 2 1
       (If 2 0
          (RotR 3 0 (
           End))
          (Swap 1 2 (
           End))
        (End))
       (End)
     (End))
  (End).
