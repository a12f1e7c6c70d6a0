(** Certificates found by tools/plan_search.cpp, written by tools/gen_plans.py, checked by
    Proofs/NetCheck.v. *)
From Coq Require Import List NArith.
From Verif Require Import Proofs.NetLib Proofs.NetCheck Model.NetworkTables.
Import ListNotations.
Local Open Scope N_scope.

Definition plan33 : list op :=
  [Cmp 0 1; Cmp 2 3; Rep [0; 1] [(0,1)] [0; 1] 127; Rep [2; 3] [(2,3)] [2; 3] 125; Cmp 4 5; Cmp 6 7;
   Rep [4; 5] [(4,5)] [4; 5] 123; Rep [6; 7] [(6,7)] [6; 7] 121; Cmp 8 9; Cmp 10 11; Rep [8; 9]
   [(8,9)] [8; 9] 119; Rep [10; 11] [(10,11)] [10; 11] 117; Cmp 12 13; Cmp 14 15; Rep [12; 13]
   [(12,13)] [12; 13] 115; Rep [14; 15] [(14,15)] [14; 15] 113; Cmp 16 17; Cmp 18 19; Rep [16; 17]
   [(16,17)] [16; 17] 111; Rep [18; 19] [(18,19)] [18; 19] 109; Cmp 20 21; Cmp 22 23; Rep [20; 21]
   [(20,21)] [20; 21] 107; Rep [22; 23] [(22,23)] [22; 23] 105; Cmp 24 25; Cmp 26 27; Rep [24; 25]
   [(24,25)] [24; 25] 103; Rep [26; 27] [(26,27)] [26; 27] 101; Cmp 28 29; Cmp 30 31; Rep [28; 29]
   [(28,29)] [28; 29] 99; Rep [30; 31] [(30,31)] [30; 31] 97; Cmp 0 2; Cmp 1 3; Cmp 4 6; Cmp 5 7;
   Rep [0; 1; 2; 3] [(0,1); (0,2); (1,3); (2,3)] [1; 2; 0; 3] 93; Rep [4; 5; 6; 7] [(4,5); (4,6);
   (5,7); (6,7)] [5; 6; 4; 7] 89; Cmp 8 10; Cmp 9 11; Cmp 12 14; Cmp 13 15; Rep [8; 9; 10; 11]
   [(8,9); (8,10); (9,11); (10,11)] [9; 10; 8; 11] 85; Rep [12; 13; 14; 15] [(12,13); (12,14);
   (13,15); (14,15)] [13; 14; 12; 15] 81; Cmp 16 18; Cmp 17 19; Cmp 20 22; Cmp 21 23; Rep [16; 17;
   18; 19] [(16,17); (16,18); (17,19); (18,19)] [17; 18; 16; 19] 77; Rep [20; 21; 22; 23] [(20,21);
   (20,22); (21,23); (22,23)] [21; 22; 20; 23] 73; Cmp 24 26; Cmp 25 27; Cmp 28 30; Cmp 29 31; Rep
   [24; 25; 26; 27] [(24,25); (24,26); (25,27); (26,27)] [25; 26; 24; 27] 69; Rep [28; 29; 30; 31]
   [(28,29); (28,30); (29,31); (30,31)] [29; 30; 28; 31] 65; Cmp 0 4; Cmp 1 5; Cmp 2 6; Cmp 3 7; Cmp
   8 12; Cmp 9 13; Cmp 10 14; Cmp 11 15; Rep [0; 1; 2; 3; 4; 5; 6; 7] [(0,1); (0,2); (0,4); (1,3);
   (1,5); (2,3); (2,6); (4,5); (4,6); (3,7); (5,7); (6,7)] [1; 6; 2; 7; 0; 3; 4; 5] 57; Rep [8; 9;
   10; 11; 12; 13; 14; 15] [(8,9); (8,10); (8,12); (9,11); (9,13); (10,11); (10,14); (12,13);
   (12,14); (11,15); (13,15); (14,15)] [9; 14; 10; 15; 8; 11; 12; 13] 49; Cmp 16 20; Cmp 17 21; Cmp
   18 22; Cmp 19 23; Cmp 24 28; Cmp 25 29; Cmp 26 30; Cmp 27 31; Rep [16; 17; 18; 19; 20; 21; 22;
   23] [(16,17); (16,18); (16,20); (17,19); (17,21); (18,19); (18,22); (20,21); (20,22); (19,23);
   (21,23); (22,23)] [17; 22; 18; 23; 16; 19; 20; 21] 41; Rep [24; 25; 26; 27; 28; 29; 30; 31]
   [(24,25); (24,26); (24,28); (25,27); (25,29); (26,27); (26,30); (28,29); (28,30); (27,31);
   (29,31); (30,31)] [25; 30; 26; 31; 24; 27; 28; 29] 33; Cmp 0 8; Cmp 1 9; Cmp 2 10; Cmp 3 11; Cmp
   4 12; Cmp 5 13; Cmp 6 14; Cmp 7 15; Cmp 16 24; Cmp 17 25; Cmp 18 26; Cmp 19 27; Cmp 20 28; Cmp 21
   29; Cmp 22 30; Cmp 23 31; Rep [0; 1; 2; 3; 4; 5; 6; 7; 8; 9; 10; 11; 12; 13; 14; 15] [(0,1);
   (0,2); (0,4); (0,8); (1,3); (1,5); (1,9); (2,3); (2,6); (2,10); (4,5); (4,6); (4,12); (8,9);
   (8,10); (8,12); (3,7); (3,11); (5,7); (5,13); (6,7); (6,14); (9,11); (9,13); (10,11); (10,14);
   (12,13); (12,14); (7,15); (11,15); (13,15); (14,15)] [3; 12; 7; 5; 1; 11; 9; 6; 2; 15; 10; 8; 13;
   14; 4; 0] 17; Rep [16; 17; 18; 19; 20; 21; 22; 23; 24; 25; 26; 27; 28; 29; 30; 31] [(16,17);
   (16,18); (16,20); (16,24); (17,19); (17,21); (17,25); (18,19); (18,22); (18,26); (20,21);
   (20,22); (20,28); (24,25); (24,26); (24,28); (19,23); (19,27); (21,23); (21,29); (22,23);
   (22,30); (25,27); (25,29); (26,27); (26,30); (28,29); (28,30); (23,31); (27,31); (29,31);
   (30,31)] [19; 28; 23; 21; 17; 27; 25; 22; 18; 31; 26; 24; 29; 30; 20; 16] 1; Cmp 0 16; Cmp 1 17;
   Cmp 2 18; Cmp 2 16; Cmp 3 19; Cmp 4 20; Cmp 1 4; Cmp 1 2; Cmp 3 20; Cmp 4 16; Cmp 5 21; Cmp 5 18;
   Cmp 6 22; Cmp 6 17; Cmp 7 23; Cmp 7 22; Cmp 8 24; Cmp 9 25; Cmp 9 24; Cmp 3 9; Cmp 9 18; Cmp 10
   26; Cmp 11 27; Cmp 12 28; Cmp 10 12; Cmp 6 10; Cmp 3 6; Cmp 6 16; Cmp 10 20; Cmp 9 10; Cmp 11 28;
   Cmp 11 17; Cmp 12 24; Cmp 13 29; Cmp 13 26; Cmp 14 30; Cmp 14 25; Cmp 15 31; Cmp 15 29; Cmp 19
   21; Cmp 7 19; Cmp 7 12; Cmp 12 20; Cmp 22 26; Cmp 17 22; Cmp 25 28; Cmp 21 25; Cmp 25 26; Cmp 27
   30; Cmp 15 27; Cmp 15 28; Cmp 29 30; Cmp 23 32; Cmp 13 23; Cmp 13 14; Cmp 5 13; Cmp 5 8; Cmp 4 5;
   Cmp 1 4; Cmp 0 1; Cmp 3 5; Cmp 8 16; Cmp 6 8; Cmp 2 6; Cmp 2 4; Cmp 3 4; Cmp 11 13; Cmp 7 11; Cmp
   7 9; Cmp 6 7; Cmp 8 9; Cmp 5 8; Cmp 5 6; Cmp 4 5; Cmp 7 8; Cmp 6 7; Cmp 10 11; Cmp 11 16; Cmp 9
   11; Cmp 13 24; Cmp 14 19; Cmp 14 18; Cmp 12 14; Cmp 15 23; Cmp 15 21; Cmp 15 17; Cmp 13 15; Cmp
   12 13; Cmp 10 12; Cmp 9 10; Cmp 8 9; Cmp 11 12; Cmp 10 11; Cmp 13 16; Cmp 17 24; Cmp 14 17; Cmp
   18 20; Cmp 15 18; Cmp 14 15; Cmp 13 14; Cmp 12 13; Cmp 15 16; Cmp 14 15; Cmp 19 22; Cmp 19 21;
   Cmp 20 24; Cmp 17 20; Cmp 21 24; Cmp 22 28; Cmp 27 32; Cmp 23 27; Cmp 23 25; Cmp 22 23; Cmp 19
   22; Cmp 18 19; Cmp 17 18; Cmp 16 17; Cmp 19 20; Cmp 18 19; Cmp 21 22; Cmp 20 21; Cmp 27 29; Cmp
   26 27; Cmp 25 26; Cmp 23 25; Cmp 23 24; Cmp 22 23; Cmp 26 28; Cmp 25 26; Cmp 24 25; Cmp 27 28;
   Cmp 30 32; Cmp 29 30; Cmp 28 29; Cmp 31 32].
Lemma check33 : check 33%nat 130 swaps33 plan33 = true.
Proof. vm_cast_no_check (eq_refl true). Qed.
Lemma sorts33 : sorts01 33%nat (map pn swaps33).
Proof. eapply check_sound; [vm_compute; reflexivity|exact check33]. Qed.

Definition plan34 : list op :=
  [Cmp 0 33; Cmp 1 2; Cmp 3 4; Rep [1; 2] [(1,2)] [1; 2] 37; Rep [3; 4] [(3,4)] [3; 4] 39; Cmp 5 6;
   Cmp 7 8; Rep [5; 6] [(5,6)] [5; 6] 41; Rep [7; 8] [(7,8)] [7; 8] 43; Cmp 9 10; Cmp 11 12; Rep [9;
   10] [(9,10)] [9; 10] 45; Rep [11; 12] [(11,12)] [11; 12] 47; Cmp 13 14; Cmp 15 16; Rep [13; 14]
   [(13,14)] [13; 14] 49; Rep [15; 16] [(15,16)] [15; 16] 51; Cmp 17 18; Cmp 19 20; Rep [17; 18]
   [(17,18)] [17; 18] 53; Rep [19; 20] [(19,20)] [19; 20] 55; Cmp 21 22; Cmp 23 24; Rep [21; 22]
   [(21,22)] [21; 22] 57; Rep [23; 24] [(23,24)] [23; 24] 59; Cmp 25 26; Cmp 27 28; Rep [25; 26]
   [(25,26)] [25; 26] 61; Rep [27; 28] [(27,28)] [27; 28] 63; Cmp 29 30; Cmp 31 32; Rep [29; 30]
   [(29,30)] [29; 30] 65; Rep [31; 32] [(31,32)] [31; 32] 67; Cmp 1 3; Cmp 2 4; Cmp 5 7; Cmp 6 8;
   Rep [1; 2; 3; 4] [(1,2); (1,3); (2,4); (3,4)] [2; 3; 1; 4] 69; Rep [5; 6; 7; 8] [(5,6); (5,7);
   (6,8); (7,8)] [6; 7; 5; 8] 73; Cmp 9 11; Cmp 10 12; Cmp 13 15; Cmp 14 16; Rep [9; 10; 11; 12]
   [(9,10); (9,11); (10,12); (11,12)] [10; 11; 9; 12] 77; Rep [13; 14; 15; 16] [(13,14); (13,15);
   (14,16); (15,16)] [14; 15; 13; 16] 81; Cmp 17 19; Cmp 18 20; Cmp 21 23; Cmp 22 24; Rep [17; 18;
   19; 20] [(17,18); (17,19); (18,20); (19,20)] [18; 19; 17; 20] 85; Rep [21; 22; 23; 24] [(21,22);
   (21,23); (22,24); (23,24)] [22; 23; 21; 24] 89; Cmp 25 27; Cmp 26 28; Cmp 29 31; Cmp 30 32; Rep
   [25; 26; 27; 28] [(25,26); (25,27); (26,28); (27,28)] [26; 27; 25; 28] 93; Rep [29; 30; 31; 32]
   [(29,30); (29,31); (30,32); (31,32)] [30; 31; 29; 32] 97; Cmp 1 5; Cmp 2 6; Cmp 3 7; Cmp 4 8; Cmp
   9 13; Cmp 10 14; Cmp 11 15; Cmp 12 16; Rep [1; 2; 3; 4; 5; 6; 7; 8] [(1,2); (1,3); (1,5); (2,4);
   (2,6); (3,4); (3,7); (5,6); (5,7); (4,8); (6,8); (7,8)] [2; 7; 3; 8; 1; 4; 5; 6] 101; Rep [9; 10;
   11; 12; 13; 14; 15; 16] [(9,10); (9,11); (9,13); (10,12); (10,14); (11,12); (11,15); (13,14);
   (13,15); (12,16); (14,16); (15,16)] [10; 15; 11; 16; 9; 12; 13; 14] 109; Cmp 17 21; Cmp 18 22;
   Cmp 19 23; Cmp 20 24; Cmp 25 29; Cmp 26 30; Cmp 27 31; Cmp 28 32; Rep [17; 18; 19; 20; 21; 22;
   23; 24] [(17,18); (17,19); (17,21); (18,20); (18,22); (19,20); (19,23); (21,22); (21,23);
   (20,24); (22,24); (23,24)] [18; 23; 19; 24; 17; 20; 21; 22] 117; Rep [25; 26; 27; 28; 29; 30; 31;
   32] [(25,26); (25,27); (25,29); (26,28); (26,30); (27,28); (27,31); (29,30); (29,31); (28,32);
   (30,32); (31,32)] [26; 31; 27; 32; 25; 28; 29; 30] 125; Cmp 1 9; Cmp 2 10; Cmp 3 11; Cmp 4 12;
   Cmp 5 13; Cmp 6 14; Cmp 7 15; Cmp 8 16; Cmp 17 25; Cmp 18 26; Cmp 19 27; Cmp 20 28; Cmp 21 29;
   Cmp 22 30; Cmp 23 31; Cmp 24 32; Rep [1; 2; 3; 4; 5; 6; 7; 8; 9; 10; 11; 12; 13; 14; 15; 16]
   [(1,2); (1,3); (1,5); (1,9); (2,4); (2,6); (2,10); (3,4); (3,7); (3,11); (5,6); (5,7); (5,13);
   (9,10); (9,11); (9,13); (4,8); (4,12); (6,8); (6,14); (7,8); (7,15); (10,12); (10,14); (11,12);
   (11,15); (13,14); (13,15); (8,16); (12,16); (14,16); (15,16)] [4; 13; 8; 6; 2; 12; 10; 7; 3; 16;
   11; 9; 14; 15; 5; 1] 133; Rep [17; 18; 19; 20; 21; 22; 23; 24; 25; 26; 27; 28; 29; 30; 31; 32]
   [(17,18); (17,19); (17,21); (17,25); (18,20); (18,22); (18,26); (19,20); (19,23); (19,27);
   (21,22); (21,23); (21,29); (25,26); (25,27); (25,29); (20,24); (20,28); (22,24); (22,30);
   (23,24); (23,31); (26,28); (26,30); (27,28); (27,31); (29,30); (29,31); (24,32); (28,32);
   (30,32); (31,32)] [20; 29; 24; 22; 18; 28; 26; 23; 19; 32; 27; 25; 30; 31; 21; 17] 149; Cmp 1 17;
   Cmp 2 18; Cmp 3 19; Cmp 2 3; Cmp 4 20; Cmp 5 21; Cmp 5 17; Cmp 6 22; Cmp 7 23; Cmp 8 24; Cmp 9
   25; Cmp 2 9; Cmp 10 26; Cmp 7 10; Cmp 11 27; Cmp 6 11; Cmp 12 28; Cmp 8 12; Cmp 13 29; Cmp 14 30;
   Cmp 15 31; Cmp 14 15; Cmp 8 14; Cmp 16 32; Cmp 16 28; Cmp 18 19; Cmp 21 25; Cmp 19 25; Cmp 8 19;
   Cmp 14 25; Cmp 22 27; Cmp 23 26; Cmp 30 31; Cmp 24 31; Rep [0; 33] [(0,33)] [0; 33] 165; Cmp 0 4;
   Cmp 0 7; Cmp 0 9; Cmp 0 5; Cmp 0 1; Cmp 4 13; Cmp 4 18; Cmp 7 21; Cmp 3 7; Cmp 3 5; Cmp 9 17; Cmp
   7 17; Cmp 13 23; Cmp 13 22; Cmp 18 21; Cmp 23 27; Cmp 29 33; Cmp 20 29; Cmp 10 20; Cmp 6 10; Cmp
   4 6; Cmp 4 9; Cmp 2 4; Cmp 1 2; Cmp 3 4; Cmp 2 3; Cmp 5 9; Cmp 4 5; Cmp 10 13; Cmp 8 10; Cmp 11
   20; Cmp 11 18; Cmp 6 11; Cmp 6 7; Cmp 7 8; Cmp 7 9; Cmp 6 7; Cmp 5 6; Cmp 11 17; Cmp 8 11; Cmp 8
   9; Cmp 7 8; Cmp 10 17; Cmp 13 19; Cmp 15 29; Cmp 18 21; Cmp 20 23; Cmp 14 20; Cmp 13 14; Cmp 19
   20; Cmp 23 25; Cmp 26 33; Cmp 12 26; Cmp 12 15; Cmp 15 22; Cmp 12 15; Cmp 12 18; Cmp 12 13; Cmp
   10 12; Cmp 11 12; Cmp 10 11; Cmp 9 10; Cmp 13 17; Cmp 14 18; Cmp 15 21; Cmp 15 19; Cmp 14 15; Cmp
   13 14; Cmp 12 13; Cmp 18 19; Cmp 20 21; Cmp 24 33; Cmp 16 24; Cmp 26 30; Cmp 16 26; Cmp 27 29;
   Cmp 22 27; Cmp 16 22; Cmp 16 23; Cmp 16 20; Cmp 16 17; Cmp 15 16; Cmp 14 15; Cmp 17 18; Cmp 16
   17; Cmp 19 20; Cmp 18 19; Cmp 21 23; Cmp 24 29; Cmp 26 27; Cmp 25 26; Cmp 22 25; Cmp 21 22; Cmp
   20 21; Cmp 22 23; Cmp 28 33; Cmp 28 30; Cmp 24 28; Cmp 24 26; Cmp 24 25; Cmp 23 24; Cmp 26 27;
   Cmp 25 26; Cmp 29 31; Cmp 29 30; Cmp 28 29; Cmp 27 28; Cmp 32 33; Cmp 31 32; Cmp 30 31].
Lemma check34 : check 34%nat 1 swaps34 plan34 = true.
Proof. vm_cast_no_check (eq_refl true). Qed.
Lemma sorts34 : sorts01 34%nat (map pn swaps34).
Proof. eapply check_sound; [vm_compute; reflexivity|exact check34]. Qed.

Definition plan35 : list op :=
  [Cmp 0 1; Cmp 2 3; Rep [0; 1] [(0,1)] [0; 1] 38; Rep [2; 3] [(2,3)] [2; 3] 40; Cmp 4 5; Cmp 6 7; Rep
   [4; 5] [(4,5)] [4; 5] 42; Rep [6; 7] [(6,7)] [6; 7] 44; Cmp 8 9; Cmp 10 11; Rep [8; 9] [(8,9)]
   [8; 9] 46; Rep [10; 11] [(10,11)] [10; 11] 48; Cmp 12 13; Cmp 14 15; Rep [12; 13] [(12,13)] [12;
   13] 50; Rep [14; 15] [(14,15)] [14; 15] 52; Cmp 16 17; Cmp 18 19; Rep [16; 17] [(16,17)] [16; 17]
   54; Rep [18; 19] [(18,19)] [18; 19] 56; Cmp 20 21; Cmp 22 23; Rep [20; 21] [(20,21)] [20; 21] 58;
   Rep [22; 23] [(22,23)] [22; 23] 60; Cmp 24 25; Cmp 26 27; Rep [24; 25] [(24,25)] [24; 25] 62; Rep
   [26; 27] [(26,27)] [26; 27] 64; Cmp 28 29; Cmp 30 31; Rep [28; 29] [(28,29)] [28; 29] 66; Rep
   [30; 31] [(30,31)] [30; 31] 68; Cmp 32 33; Rep [32; 33] [(32,33)] [32; 33] 70; Cmp 33 34; Cmp 32
   33; Cmp 0 2; Cmp 1 3; Cmp 4 6; Cmp 5 7; Rep [0; 1; 2; 3] [(0,1); (0,2); (1,3); (2,3)] [1; 2; 0;
   3] 72; Rep [4; 5; 6; 7] [(4,5); (4,6); (5,7); (6,7)] [5; 6; 4; 7] 76; Cmp 8 10; Cmp 9 11; Cmp 12
   14; Cmp 13 15; Rep [8; 9; 10; 11] [(8,9); (8,10); (9,11); (10,11)] [9; 10; 8; 11] 80; Rep [12;
   13; 14; 15] [(12,13); (12,14); (13,15); (14,15)] [13; 14; 12; 15] 84; Cmp 16 18; Cmp 17 19; Cmp
   20 22; Cmp 21 23; Rep [16; 17; 18; 19] [(16,17); (16,18); (17,19); (18,19)] [17; 18; 16; 19] 88;
   Rep [20; 21; 22; 23] [(20,21); (20,22); (21,23); (22,23)] [21; 22; 20; 23] 92; Cmp 24 26; Cmp 25
   27; Cmp 28 30; Cmp 29 31; Rep [24; 25; 26; 27] [(24,25); (24,26); (25,27); (26,27)] [25; 26; 24;
   27] 96; Rep [28; 29; 30; 31] [(28,29); (28,30); (29,31); (30,31)] [29; 30; 28; 31] 100; Cmp 0 4;
   Cmp 1 5; Cmp 2 6; Cmp 3 7; Cmp 8 12; Cmp 9 13; Cmp 10 14; Cmp 11 15; Rep [0; 1; 2; 3; 4; 5; 6; 7]
   [(0,1); (0,2); (0,4); (1,3); (1,5); (2,3); (2,6); (4,5); (4,6); (3,7); (5,7); (6,7)] [1; 6; 2; 7;
   0; 3; 4; 5] 104; Rep [8; 9; 10; 11; 12; 13; 14; 15] [(8,9); (8,10); (8,12); (9,11); (9,13);
   (10,11); (10,14); (12,13); (12,14); (11,15); (13,15); (14,15)] [9; 14; 10; 15; 8; 11; 12; 13]
   112; Cmp 16 20; Cmp 17 21; Cmp 18 22; Cmp 19 23; Cmp 24 28; Cmp 25 29; Cmp 26 30; Cmp 27 31; Rep
   [16; 17; 18; 19; 20; 21; 22; 23] [(16,17); (16,18); (16,20); (17,19); (17,21); (18,19); (18,22);
   (20,21); (20,22); (19,23); (21,23); (22,23)] [17; 22; 18; 23; 16; 19; 20; 21] 120; Rep [24; 25;
   26; 27; 28; 29; 30; 31] [(24,25); (24,26); (24,28); (25,27); (25,29); (26,27); (26,30); (28,29);
   (28,30); (27,31); (29,31); (30,31)] [25; 30; 26; 31; 24; 27; 28; 29] 128; Cmp 0 8; Cmp 1 9; Cmp 2
   10; Cmp 3 11; Cmp 4 12; Cmp 5 13; Cmp 6 14; Cmp 7 15; Cmp 16 24; Cmp 17 25; Cmp 18 26; Cmp 19 27;
   Cmp 20 28; Cmp 21 29; Cmp 22 30; Cmp 23 31; Rep [0; 1; 2; 3; 4; 5; 6; 7; 8; 9; 10; 11; 12; 13;
   14; 15] [(0,1); (0,2); (0,4); (0,8); (1,3); (1,5); (1,9); (2,3); (2,6); (2,10); (4,5); (4,6);
   (4,12); (8,9); (8,10); (8,12); (3,7); (3,11); (5,7); (5,13); (6,7); (6,14); (9,11); (9,13);
   (10,11); (10,14); (12,13); (12,14); (7,15); (11,15); (13,15); (14,15)] [3; 12; 7; 5; 1; 11; 9; 6;
   2; 15; 10; 8; 13; 14; 4; 0] 136; Rep [16; 17; 18; 19; 20; 21; 22; 23; 24; 25; 26; 27; 28; 29; 30;
   31] [(16,17); (16,18); (16,20); (16,24); (17,19); (17,21); (17,25); (18,19); (18,22); (18,26);
   (20,21); (20,22); (20,28); (24,25); (24,26); (24,28); (19,23); (19,27); (21,23); (21,29);
   (22,23); (22,30); (25,27); (25,29); (26,27); (26,30); (28,29); (28,30); (23,31); (27,31);
   (29,31); (30,31)] [19; 28; 23; 21; 17; 27; 25; 22; 18; 31; 26; 24; 29; 30; 20; 16] 152; Cmp 0 16;
   Cmp 1 17; Cmp 2 18; Cmp 1 2; Cmp 3 19; Cmp 4 20; Cmp 5 21; Cmp 6 22; Cmp 7 23; Cmp 8 24; Cmp 4 8;
   Cmp 9 25; Cmp 6 9; Cmp 10 26; Cmp 5 10; Cmp 5 6; Cmp 11 27; Cmp 7 11; Cmp 12 28; Cmp 3 12; Cmp 13
   29; Cmp 14 30; Cmp 13 14; Cmp 15 31; Cmp 17 18; Cmp 19 28; Cmp 9 19; Cmp 14 28; Cmp 20 24; Cmp 18
   24; Cmp 21 26; Cmp 19 26; Cmp 22 25; Cmp 21 22; Cmp 9 21; Cmp 14 22; Cmp 23 27; Cmp 29 30; Rep
   [32; 33; 34] [(32,33); (33,34)] [33; 34; 32] 168; Cmp 0 32; Cmp 16 32; Cmp 3 16; Cmp 10 32; Cmp
   10 16; Cmp 5 16; Cmp 5 10; Cmp 16 18; Cmp 10 16; Cmp 17 33; Cmp 1 17; Cmp 1 3; Cmp 3 4; Cmp 1 3;
   Cmp 8 17; Cmp 4 8; Cmp 6 17; Cmp 13 33; Cmp 7 13; Cmp 11 33; Cmp 11 19; Cmp 13 24; Cmp 17 18; Cmp
   19 24; Cmp 26 33; Cmp 31 34; Cmp 15 31; Cmp 15 20; Cmp 2 15; Cmp 2 5; Cmp 2 4; Cmp 2 3; Cmp 5 8;
   Cmp 4 5; Cmp 7 15; Cmp 6 7; Cmp 8 10; Cmp 13 15; Cmp 20 32; Cmp 12 20; Cmp 9 12; Cmp 9 16; Cmp 6
   9; Cmp 6 8; Cmp 5 6; Cmp 7 16; Cmp 7 9; Cmp 20 21; Cmp 11 20; Cmp 11 17; Cmp 18 20; Cmp 25 32;
   Cmp 14 25; Cmp 12 14; Cmp 12 13; Cmp 11 12; Cmp 10 11; Cmp 7 10; Cmp 7 8; Cmp 9 11; Cmp 9 10; Cmp
   13 18; Cmp 13 16; Cmp 14 15; Cmp 14 17; Cmp 12 14; Cmp 12 13; Cmp 11 12; Cmp 14 16; Cmp 13 14;
   Cmp 15 20; Cmp 17 18; Cmp 22 25; Cmp 28 32; Cmp 26 28; Cmp 19 26; Cmp 24 28; Cmp 30 31; Cmp 23
   30; Cmp 23 29; Cmp 21 23; Cmp 21 22; Cmp 19 21; Cmp 15 19; Cmp 15 17; Cmp 15 16; Cmp 18 19; Cmp
   17 18; Cmp 20 21; Cmp 22 24; Cmp 23 25; Cmp 23 26; Cmp 22 23; Cmp 20 22; Cmp 19 20; Cmp 21 23;
   Cmp 21 22; Cmp 24 26; Cmp 25 28; Cmp 29 33; Cmp 27 33; Cmp 30 32; Cmp 27 30; Cmp 27 29; Cmp 25
   27; Cmp 24 25; Cmp 23 24; Cmp 26 27; Cmp 25 26; Cmp 28 29; Cmp 27 28; Cmp 31 33; Cmp 31 32; Cmp
   30 31; Cmp 29 30].
Lemma check35 : check 35%nat 1 swaps35 plan35 = true.
Proof. vm_cast_no_check (eq_refl true). Qed.
Lemma sorts35 : sorts01 35%nat (map pn swaps35).
Proof. eapply check_sound; [vm_compute; reflexivity|exact check35]. Qed.

Definition plan45 : list op :=
  [Cmp 3 12; Cmp 4 8; Rep [3; 12] [(3,12)] [3; 12] 131; Rep [4; 8] [(4,8)] [4; 8] 129; Cmp 5 6; Rep
   [5; 6] [(5,6)] [5; 6] 127; Cmp 7 11; Rep [7; 11] [(7,11)] [7; 11] 125; Cmp 9 10; Rep [9; 10]
   [(9,10)] [9; 10] 123; Cmp 13 32; Cmp 14 35; Cmp 15 18; Cmp 16 29; Cmp 17 28; Cmp 19 30; Cmp 20
   24; Rep [19; 30] [(19,30)] [19; 30] 121; Rep [20; 24] [(20,24)] [20; 24] 119; Cmp 21 22; Rep [16;
   29] [(16,29)] [16; 29] 117; Rep [21; 22] [(21,22)] [21; 22] 115; Cmp 23 27; Rep [17; 28]
   [(17,28)] [17; 28] 113; Rep [23; 27] [(23,27)] [23; 27] 111; Cmp 25 26; Rep [15; 18] [(15,18)]
   [15; 18] 109; Rep [25; 26] [(25,26)] [25; 26] 107; Cmp 31 34; Cmp 33 44; Cmp 36 40; Rep [14; 35]
   [(14,35)] [14; 35] 105; Rep [36; 40] [(36,40)] [36; 40] 103; Cmp 37 38; Rep [13; 32] [(13,32)]
   [13; 32] 101; Rep [37; 38] [(37,38)] [37; 38] 99; Cmp 39 43; Rep [33; 44] [(33,44)] [33; 44] 97;
   Rep [39; 43] [(39,43)] [39; 43] 95; Cmp 41 42; Rep [31; 34] [(31,34)] [31; 34] 93; Rep [41; 42]
   [(41,42)] [41; 42] 91; Cmp 0 5; Cmp 1 7; Rep [0; 5; 6] [(0,5); (0,6)] [0; 5; 6] 88; Rep [1; 7;
   11] [(1,7); (1,11)] [1; 7; 11] 85; Cmp 2 9; Rep [2; 9; 10] [(2,9); (2,10)] [2; 9; 10] 82; Cmp 3
   4; Cmp 8 12; Rep [3; 12; 4; 8] [(3,4); (3,8); (4,12); (8,12)] [4; 12; 3; 8] 78; Cmp 13 37; Cmp 32
   38; Cmp 14 36; Cmp 35 40; Rep [13; 32; 37; 38] [(13,32); (13,37); (32,38); (37,38)] [32; 37; 13;
   38] 74; Rep [14; 35; 36; 40] [(14,35); (14,36); (35,40); (36,40)] [35; 36; 14; 40] 70; Cmp 15 25;
   Cmp 18 26; Cmp 16 21; Cmp 22 29; Cmp 17 23; Cmp 27 28; Rep [16; 29; 21; 22] [(16,21); (16,22);
   (21,29); (22,29)] [21; 29; 16; 22] 66; Rep [17; 28; 23; 27] [(17,23); (17,27); (23,28); (27,28)]
   [23; 28; 17; 27] 62; Rep [15; 18; 25; 26] [(15,18); (15,25); (18,26); (25,26)] [18; 25; 15; 26]
   58; Cmp 19 20; Cmp 24 30; Rep [19; 30; 20; 24] [(19,20); (19,24); (20,30); (24,30)] [20; 30; 19;
   24] 54; Cmp 31 41; Cmp 34 42; Rep [31; 34; 41; 42] [(31,34); (31,41); (34,42); (41,42)] [34; 41;
   31; 42] 50; Cmp 33 39; Cmp 43 44; Rep [33; 44; 39; 43] [(33,39); (33,43); (39,44); (43,44)] [39;
   44; 33; 43] 46; Cmp 0 1; Cmp 2 3; Cmp 13 33; Cmp 38 44; Cmp 14 31; Cmp 40 42; Cmp 15 19; Cmp 26
   30; Cmp 16 17; Cmp 28 29; Cmp 0 2; Cmp 1 3; Cmp 1 2; Cmp 3 12; Cmp 4 5; Cmp 6 8; Cmp 7 9; Cmp 6
   7; Cmp 8 9; Cmp 10 11; Cmp 4 10; Cmp 4 6; Cmp 1 4; Cmp 2 6; Cmp 5 11; Cmp 5 7; Cmp 8 10; Cmp 5 8;
   Cmp 7 10; Cmp 9 11; Cmp 13 14; Cmp 31 33; Cmp 14 31; Cmp 32 35; Cmp 34 43; Cmp 36 37; Cmp 34 36;
   Cmp 37 43; Cmp 38 40; Cmp 33 38; Cmp 39 41; Cmp 32 39; Cmp 32 34; Cmp 14 32; Cmp 31 34; Cmp 35
   41; Cmp 35 36; Cmp 37 39; Cmp 35 37; Cmp 36 39; Cmp 41 43; Cmp 42 44; Cmp 40 42; Cmp 40 41; Cmp
   42 43; Rep [0; 5; 6; 1; 7; 11; 2; 9; 10; 3; 12; 4; 8] [(0,1); (1,2); (1,4); (2,6); (2,3); (2,8);
   (4,5); (4,6); (5,7); (5,8); (3,9); (3,12); (6,7); (6,12); (8,9); (8,10); (7,10); (9,11); (10,11)]
   [6; 9; 5; 10; 7; 2; 11; 3; 1; 12; 8; 4; 0] 33; Rep [13; 32; 37; 38; 33; 44; 39; 43; 14; 35; 36;
   40; 31; 34; 41; 42] [(13,14); (14,32); (14,31); (32,35); (32,34); (31,37); (31,33); (31,34);
   (33,38); (33,40); (35,37); (35,36); (34,38); (34,36); (37,39); (37,40); (38,41); (36,39);
   (36,41); (40,41); (40,42); (39,42); (41,43); (42,43); (43,44)] [37; 41; 32; 43; 39; 34; 14; 44;
   40; 38; 33; 13; 42; 35; 31; 36] 17; Cmp 15 16; Cmp 17 19; Cmp 16 17; Cmp 18 27; Cmp 20 21; Cmp 18
   20; Cmp 21 27; Cmp 22 24; Cmp 23 25; Cmp 22 23; Cmp 18 22; Cmp 16 18; Cmp 17 22; Cmp 21 23; Cmp
   24 25; Cmp 20 24; Cmp 20 21; Cmp 23 24; Cmp 25 27; Cmp 26 28; Cmp 19 26; Cmp 29 30; Cmp 28 29;
   Cmp 25 28; Cmp 27 29; Rep [15; 18; 25; 26; 19; 30; 20; 24; 16; 29; 21; 22; 17; 28; 23; 27]
   [(15,16); (16,18); (16,17); (18,20); (18,22); (17,19); (17,21); (17,22); (19,25); (19,26);
   (20,21); (20,23); (22,26); (22,23); (21,25); (21,24); (26,28); (23,24); (23,28); (25,28);
   (25,27); (24,27); (28,29); (27,29); (29,30)] [21; 28; 18; 29; 24; 22; 16; 30; 25; 26; 19; 15; 27;
   20; 17; 23] 1; Cmp 1 14; Cmp 2 31; Cmp 5 35; Cmp 10 39; Cmp 1 16; Cmp 3 19; Cmp 3 33; Cmp 5 20;
   Cmp 8 21; Cmp 8 37; Cmp 9 25; Cmp 11 27; Cmp 13 15; Cmp 0 13; Cmp 13 15; Cmp 5 15; Cmp 14 16; Cmp
   17 31; Cmp 2 17; Cmp 2 5; Cmp 18 32; Cmp 4 18; Cmp 4 13; Cmp 1 4; Cmp 2 4; Cmp 3 13; Cmp 18 32;
   Cmp 19 33; Cmp 8 19; Cmp 20 35; Cmp 13 20; Cmp 21 37; Cmp 19 21; Cmp 22 34; Cmp 6 22; Cmp 6 14;
   Cmp 3 6; Cmp 3 4; Cmp 5 6; Cmp 4 5; Cmp 22 34; Cmp 23 36; Cmp 7 36; Cmp 7 23; Cmp 7 31; Cmp 7 18;
   Cmp 7 13; Cmp 6 7; Cmp 24 39; Cmp 10 24; Cmp 25 40; Cmp 9 25; Cmp 9 16; Cmp 9 14; Cmp 13 14; Cmp
   14 18; Cmp 26 38; Cmp 12 38; Cmp 12 26; Cmp 12 15; Cmp 12 17; Cmp 9 12; Cmp 7 12; Cmp 15 22; Cmp
   10 22; Cmp 26 36; Cmp 23 26; Cmp 16 23; Cmp 27 42; Cmp 11 27; Cmp 11 31; Cmp 11 20; Cmp 28 41;
   Cmp 28 37; Cmp 27 37; Cmp 28 32; Cmp 15 28; Cmp 8 15; Cmp 8 13; Cmp 8 9; Cmp 6 8; Cmp 5 6; Cmp 12
   13; Cmp 19 28; Cmp 15 19; Cmp 29 43; Cmp 29 34; Cmp 21 29; Cmp 16 21; Cmp 11 16; Cmp 11 14; Cmp
   16 18; Cmp 20 21; Cmp 23 29; Cmp 30 44; Cmp 30 39; Cmp 30 33; Cmp 25 30; Cmp 25 35; Cmp 10 25;
   Cmp 10 17; Cmp 10 15; Cmp 10 11; Cmp 9 10; Cmp 7 9; Cmp 7 8; Cmp 10 12; Cmp 9 10; Cmp 14 15; Cmp
   11 14; Cmp 17 19; Cmp 16 17; Cmp 13 16; Cmp 11 13; Cmp 11 12; Cmp 14 16; Cmp 13 14; Cmp 15 17;
   Cmp 18 19; Cmp 22 35; Cmp 25 28; Cmp 30 31; Cmp 26 30; Cmp 22 26; Cmp 22 25; Cmp 26 28; Cmp 31
   36; Cmp 30 31; Cmp 33 41; Cmp 33 35; Cmp 30 33; Cmp 31 35; Cmp 40 43; Cmp 34 40; Cmp 40 41; Cmp
   42 44; Cmp 38 42; Cmp 24 38; Cmp 24 32; Cmp 23 24; Cmp 20 23; Cmp 20 22; Cmp 18 20; Cmp 15 18;
   Cmp 15 16; Cmp 17 20; Cmp 17 18; Cmp 19 22; Cmp 21 24; Cmp 21 26; Cmp 23 25; Cmp 21 23; Cmp 19
   21; Cmp 19 20; Cmp 22 23; Cmp 21 22; Cmp 24 28; Cmp 25 26; Cmp 29 32; Cmp 37 38; Cmp 34 37; Cmp
   27 34; Cmp 27 29; Cmp 27 30; Cmp 24 27; Cmp 24 25; Cmp 23 24; Cmp 26 27; Cmp 25 26; Cmp 28 30;
   Cmp 29 33; Cmp 32 34; Cmp 31 32; Cmp 29 31; Cmp 28 29; Cmp 27 28; Cmp 30 31; Cmp 29 30; Cmp 34
   35; Cmp 32 34; Cmp 36 37; Cmp 37 41; Cmp 35 37; Cmp 42 43; Cmp 39 42; Cmp 38 39; Cmp 38 40; Cmp
   36 38; Cmp 33 36; Cmp 32 33; Cmp 31 32; Cmp 34 36; Cmp 33 34; Cmp 35 38; Cmp 35 36; Cmp 37 40;
   Cmp 37 38; Cmp 39 41; Cmp 39 40; Cmp 43 44; Cmp 42 43; Cmp 41 42].
Lemma check45 : check 45%nat 134 swaps45 plan45 = true.
Proof. vm_cast_no_check (eq_refl true). Qed.
Lemma sorts45 : sorts01 45%nat (map pn swaps45).
Proof. eapply check_sound; [vm_compute; reflexivity|exact check45]. Qed.

Definition plan46 : list op :=
  [Cmp 2 13; Cmp 3 12; Cmp 4 8; Rep [3; 12] [(3,12)] [3; 12] 49; Rep [4; 8] [(4,8)] [4; 8] 51; Cmp 5
   6; Rep [5; 6] [(5,6)] [5; 6] 53; Cmp 7 11; Rep [7; 11] [(7,11)] [7; 11] 55; Cmp 9 10; Rep [2; 13]
   [(2,13)] [2; 13] 57; Rep [9; 10] [(9,10)] [9; 10] 59; Cmp 14 35; Cmp 15 18; Cmp 16 29; Cmp 17 28;
   Cmp 19 30; Cmp 20 24; Rep [19; 30] [(19,30)] [19; 30] 61; Rep [20; 24] [(20,24)] [20; 24] 63; Cmp
   21 22; Rep [16; 29] [(16,29)] [16; 29] 65; Rep [21; 22] [(21,22)] [21; 22] 67; Cmp 23 27; Rep
   [17; 28] [(17,28)] [17; 28] 69; Rep [23; 27] [(23,27)] [23; 27] 71; Cmp 25 26; Rep [15; 18]
   [(15,18)] [15; 18] 73; Rep [25; 26] [(25,26)] [25; 26] 75; Cmp 31 34; Cmp 32 45; Cmp 33 44; Cmp
   36 40; Rep [14; 35] [(14,35)] [14; 35] 77; Rep [36; 40] [(36,40)] [36; 40] 79; Cmp 37 38; Rep
   [32; 45] [(32,45)] [32; 45] 81; Rep [37; 38] [(37,38)] [37; 38] 83; Cmp 39 43; Rep [33; 44]
   [(33,44)] [33; 44] 85; Rep [39; 43] [(39,43)] [39; 43] 87; Cmp 41 42; Rep [31; 34] [(31,34)] [31;
   34] 89; Rep [41; 42] [(41,42)] [41; 42] 91; Cmp 0 5; Cmp 1 7; Rep [0; 5; 6] [(0,5); (0,6)] [0; 5;
   6] 93; Rep [1; 7; 11] [(1,7); (1,11)] [1; 7; 11] 96; Cmp 2 9; Cmp 10 13; Rep [2; 13; 9; 10]
   [(2,9); (2,10); (9,13); (10,13)] [9; 13; 2; 10] 99; Cmp 3 4; Cmp 8 12; Rep [3; 12; 4; 8] [(3,4);
   (3,8); (4,12); (8,12)] [4; 12; 3; 8] 103; Cmp 14 36; Cmp 35 40; Cmp 15 25; Cmp 18 26; Cmp 16 21;
   Cmp 22 29; Cmp 17 23; Cmp 27 28; Rep [16; 29; 21; 22] [(16,21); (16,22); (21,29); (22,29)] [21;
   29; 16; 22] 107; Rep [17; 28; 23; 27] [(17,23); (17,27); (23,28); (27,28)] [23; 28; 17; 27] 111;
   Rep [15; 18; 25; 26] [(15,18); (15,25); (18,26); (25,26)] [18; 25; 15; 26] 115; Cmp 19 20; Cmp 24
   30; Rep [19; 30; 20; 24] [(19,20); (19,24); (20,30); (24,30)] [20; 30; 19; 24] 119; Cmp 31 41;
   Cmp 34 42; Rep [14; 35; 36; 40] [(14,35); (14,36); (35,40); (36,40)] [35; 36; 14; 40] 123; Rep
   [31; 34; 41; 42] [(31,34); (31,41); (34,42); (41,42)] [34; 41; 31; 42] 127; Cmp 32 37; Cmp 38 45;
   Rep [32; 45; 37; 38] [(32,37); (32,38); (37,45); (38,45)] [37; 45; 32; 38] 131; Cmp 33 39; Cmp 43
   44; Rep [33; 44; 39; 43] [(33,39); (33,43); (39,44); (43,44)] [39; 44; 33; 43] 135; Cmp 0 1; Cmp
   2 3; Cmp 12 13; Cmp 14 31; Cmp 40 42; Cmp 15 19; Cmp 26 30; Cmp 16 17; Cmp 28 29; Cmp 32 33; Cmp
   44 45; Cmp 0 2; Cmp 1 3; Cmp 1 2; Cmp 3 12; Cmp 4 5; Cmp 6 8; Cmp 7 9; Cmp 6 7; Cmp 8 9; Cmp 10
   11; Cmp 4 10; Cmp 4 6; Cmp 1 4; Cmp 2 6; Cmp 5 11; Cmp 5 7; Cmp 8 10; Cmp 5 8; Cmp 7 10; Cmp 9
   11; Cmp 9 13; Cmp 14 32; Cmp 31 33; Cmp 31 32; Cmp 34 43; Cmp 35 38; Cmp 36 37; Cmp 34 36; Cmp 37
   43; Cmp 39 41; Cmp 35 39; Cmp 34 35; Cmp 31 34; Cmp 32 35; Cmp 37 39; Cmp 38 41; Cmp 36 38; Cmp
   36 37; Cmp 38 39; Cmp 40 44; Cmp 33 40; Cmp 41 43; Cmp 42 45; Cmp 42 44; Cmp 41 42; Cmp 43 44;
   Rep [14; 35; 36; 40; 31; 34; 41; 42; 32; 45; 37; 38; 33; 44; 39; 43] [(14,31); (31,34); (31,32);
   (34,35); (34,36); (32,35); (32,37); (32,33); (36,37); (36,38); (33,40); (33,41); (35,40);
   (35,38); (37,41); (37,39); (40,42); (38,42); (38,39); (41,42); (41,43); (39,43); (42,44);
   (43,44); (44,45)] [37; 42; 35; 44; 38; 36; 31; 45; 39; 41; 40; 32; 43; 33; 14; 34] 139; Rep [0;
   5; 6; 1; 7; 11; 2; 13; 9; 10; 3; 12; 4; 8] [(0,1); (1,2); (1,4); (2,6); (2,3); (2,8); (4,5);
   (4,6); (5,7); (5,8); (3,9); (3,12); (6,7); (6,12); (8,9); (8,10); (7,13); (7,10); (12,13);
   (9,11); (9,13); (10,11)] [6; 9; 5; 10; 7; 2; 13; 3; 1; 11; 12; 8; 4; 0] 155; Cmp 15 16; Cmp 17
   19; Cmp 16 17; Cmp 18 27; Cmp 20 21; Cmp 18 20; Cmp 21 27; Cmp 22 24; Cmp 23 25; Cmp 22 23; Cmp
   18 22; Cmp 16 18; Cmp 17 22; Cmp 21 23; Cmp 24 25; Cmp 20 24; Cmp 20 21; Cmp 23 24; Cmp 25 27;
   Cmp 26 28; Cmp 19 26; Cmp 29 30; Cmp 28 29; Cmp 25 28; Cmp 27 29; Rep [15; 18; 25; 26; 19; 30;
   20; 24; 16; 29; 21; 22; 17; 28; 23; 27] [(15,16); (16,18); (16,17); (18,20); (18,22); (17,19);
   (17,21); (17,22); (19,25); (19,26); (20,21); (20,23); (22,26); (22,23); (21,25); (21,24);
   (26,28); (23,24); (23,28); (25,28); (25,27); (24,27); (28,29); (27,29); (29,30)] [21; 28; 18; 29;
   24; 22; 16; 30; 25; 26; 19; 15; 27; 20; 17; 23] 169; Cmp 1 31; Cmp 2 32; Cmp 5 36; Cmp 10 39; Cmp
   13 42; Cmp 1 16; Cmp 3 19; Cmp 3 33; Cmp 5 20; Cmp 8 21; Cmp 8 37; Cmp 9 25; Cmp 11 27; Cmp 13
   28; Cmp 14 15; Cmp 0 14; Cmp 14 15; Cmp 5 15; Cmp 16 31; Cmp 17 32; Cmp 2 17; Cmp 2 5; Cmp 18 34;
   Cmp 4 18; Cmp 4 14; Cmp 1 4; Cmp 2 4; Cmp 3 14; Cmp 18 34; Cmp 19 33; Cmp 8 19; Cmp 20 36; Cmp 14
   20; Cmp 21 37; Cmp 13 37; Cmp 13 34; Cmp 19 21; Cmp 22 35; Cmp 6 22; Cmp 6 16; Cmp 3 6; Cmp 3 4;
   Cmp 5 6; Cmp 4 5; Cmp 22 35; Cmp 23 38; Cmp 7 38; Cmp 7 23; Cmp 7 32; Cmp 7 18; Cmp 7 14; Cmp 6
   7; Cmp 24 39; Cmp 10 24; Cmp 25 41; Cmp 9 25; Cmp 9 31; Cmp 9 16; Cmp 14 16; Cmp 16 18; Cmp 26
   40; Cmp 12 40; Cmp 12 26; Cmp 12 15; Cmp 12 17; Cmp 9 12; Cmp 7 12; Cmp 15 22; Cmp 10 22; Cmp 13
   15; Cmp 8 13; Cmp 8 14; Cmp 8 9; Cmp 6 8; Cmp 5 6; Cmp 12 14; Cmp 15 19; Cmp 13 15; Cmp 26 38;
   Cmp 23 26; Cmp 23 31; Cmp 27 43; Cmp 11 27; Cmp 11 32; Cmp 11 20; Cmp 27 37; Cmp 28 42; Cmp 29
   44; Cmp 29 35; Cmp 21 29; Cmp 21 23; Cmp 11 21; Cmp 11 16; Cmp 18 21; Cmp 20 23; Cmp 29 31; Cmp
   30 45; Cmp 30 39; Cmp 30 33; Cmp 25 30; Cmp 25 36; Cmp 10 25; Cmp 10 17; Cmp 10 13; Cmp 10 11;
   Cmp 9 10; Cmp 7 9; Cmp 7 8; Cmp 10 12; Cmp 9 10; Cmp 13 16; Cmp 11 13; Cmp 15 17; Cmp 15 18; Cmp
   14 15; Cmp 11 14; Cmp 11 12; Cmp 13 15; Cmp 13 14; Cmp 16 18; Cmp 17 21; Cmp 19 25; Cmp 22 36;
   Cmp 28 33; Cmp 28 36; Cmp 30 32; Cmp 26 30; Cmp 22 26; Cmp 19 22; Cmp 25 26; Cmp 32 38; Cmp 30
   32; Cmp 28 30; Cmp 32 36; Cmp 39 42; Cmp 41 44; Cmp 35 41; Cmp 33 41; Cmp 43 45; Cmp 40 43; Cmp
   24 40; Cmp 24 34; Cmp 24 29; Cmp 20 24; Cmp 19 20; Cmp 17 19; Cmp 16 17; Cmp 15 16; Cmp 18 19;
   Cmp 17 18; Cmp 20 21; Cmp 22 24; Cmp 23 29; Cmp 23 25; Cmp 22 23; Cmp 20 22; Cmp 19 20; Cmp 21
   23; Cmp 21 22; Cmp 24 25; Cmp 26 29; Cmp 31 34; Cmp 37 40; Cmp 35 37; Cmp 27 35; Cmp 27 31; Cmp
   27 28; Cmp 26 27; Cmp 24 26; Cmp 23 24; Cmp 25 27; Cmp 25 26; Cmp 28 29; Cmp 30 31; Cmp 34 35;
   Cmp 32 34; Cmp 30 32; Cmp 28 30; Cmp 27 28; Cmp 29 32; Cmp 29 30; Cmp 35 36; Cmp 34 35; Cmp 37
   38; Cmp 38 41; Cmp 36 38; Cmp 42 45; Cmp 43 44; Cmp 39 43; Cmp 39 40; Cmp 33 39; Cmp 33 37; Cmp
   31 33; Cmp 31 34; Cmp 31 32; Cmp 33 35; Cmp 33 34; Cmp 36 37; Cmp 35 36; Cmp 38 39; Cmp 37 38;
   Cmp 40 41; Cmp 39 40; Cmp 42 44; Cmp 42 43; Cmp 41 42].
Lemma check46 : check 46%nat 1 swaps46 plan46 = true.
Proof. vm_cast_no_check (eq_refl true). Qed.
Lemma sorts46 : sorts01 46%nat (map pn swaps46).
Proof. eapply check_sound; [vm_compute; reflexivity|exact check46]. Qed.

Definition plan47 : list op :=
  [Cmp 1 12; Cmp 2 13; Cmp 3 14; Cmp 4 8; Rep [3; 14] [(3,14)] [3; 14] 50; Rep [4; 8] [(4,8)] [4; 8]
   52; Cmp 5 6; Rep [5; 6] [(5,6)] [5; 6] 54; Cmp 7 11; Rep [1; 12] [(1,12)] [1; 12] 56; Rep [7; 11]
   [(7,11)] [7; 11] 58; Cmp 9 10; Rep [2; 13] [(2,13)] [2; 13] 60; Rep [9; 10] [(9,10)] [9; 10] 62;
   Cmp 15 18; Cmp 16 29; Cmp 17 28; Cmp 19 30; Cmp 20 24; Rep [19; 30] [(19,30)] [19; 30] 64; Rep
   [20; 24] [(20,24)] [20; 24] 66; Cmp 21 22; Rep [16; 29] [(16,29)] [16; 29] 68; Rep [21; 22]
   [(21,22)] [21; 22] 70; Cmp 23 27; Rep [17; 28] [(17,28)] [17; 28] 72; Rep [23; 27] [(23,27)] [23;
   27] 74; Cmp 25 26; Rep [15; 18] [(15,18)] [15; 18] 76; Rep [25; 26] [(25,26)] [25; 26] 78; Cmp 31
   34; Cmp 32 45; Cmp 33 44; Cmp 35 46; Cmp 36 40; Rep [35; 46] [(35,46)] [35; 46] 80; Rep [36; 40]
   [(36,40)] [36; 40] 82; Cmp 37 38; Rep [32; 45] [(32,45)] [32; 45] 84; Rep [37; 38] [(37,38)] [37;
   38] 86; Cmp 39 43; Rep [33; 44] [(33,44)] [33; 44] 88; Rep [39; 43] [(39,43)] [39; 43] 90; Cmp 41
   42; Rep [31; 34] [(31,34)] [31; 34] 92; Rep [41; 42] [(41,42)] [41; 42] 94; Cmp 0 5; Cmp 1 7; Cmp
   11 12; Rep [0; 5; 6] [(0,5); (0,6)] [0; 5; 6] 96; Rep [1; 12; 7; 11] [(1,7); (1,11); (7,12);
   (11,12)] [7; 12; 1; 11] 99; Cmp 2 9; Cmp 10 13; Rep [2; 13; 9; 10] [(2,9); (2,10); (9,13);
   (10,13)] [9; 13; 2; 10] 103; Cmp 3 4; Cmp 8 14; Rep [3; 14; 4; 8] [(3,4); (3,8); (4,14); (8,14)]
   [4; 14; 3; 8] 107; Cmp 15 25; Cmp 18 26; Cmp 16 21; Cmp 22 29; Cmp 17 23; Cmp 27 28; Rep [16; 29;
   21; 22] [(16,21); (16,22); (21,29); (22,29)] [21; 29; 16; 22] 111; Rep [17; 28; 23; 27] [(17,23);
   (17,27); (23,28); (27,28)] [23; 28; 17; 27] 115; Rep [15; 18; 25; 26] [(15,18); (15,25); (18,26);
   (25,26)] [18; 25; 15; 26] 119; Cmp 19 20; Cmp 24 30; Rep [19; 30; 20; 24] [(19,20); (19,24);
   (20,30); (24,30)] [20; 30; 19; 24] 123; Cmp 31 41; Cmp 34 42; Cmp 32 37; Cmp 38 45; Cmp 33 39;
   Cmp 43 44; Rep [32; 45; 37; 38] [(32,37); (32,38); (37,45); (38,45)] [37; 45; 32; 38] 127; Rep
   [33; 44; 39; 43] [(33,39); (33,43); (39,44); (43,44)] [39; 44; 33; 43] 131; Rep [31; 34; 41; 42]
   [(31,34); (31,41); (34,42); (41,42)] [34; 41; 31; 42] 135; Cmp 35 36; Cmp 40 46; Rep [35; 46; 36;
   40] [(35,36); (35,40); (36,46); (40,46)] [36; 46; 35; 40] 139; Cmp 0 1; Cmp 2 3; Cmp 13 14; Cmp
   15 19; Cmp 26 30; Cmp 16 17; Cmp 28 29; Cmp 31 35; Cmp 42 46; Cmp 32 33; Cmp 44 45; Cmp 0 2; Cmp
   1 3; Cmp 1 2; Cmp 4 5; Cmp 6 8; Cmp 7 9; Cmp 6 7; Cmp 8 9; Cmp 10 11; Cmp 4 10; Cmp 4 6; Cmp 1 4;
   Cmp 2 6; Cmp 5 11; Cmp 5 7; Cmp 8 10; Cmp 5 8; Cmp 7 10; Cmp 9 11; Cmp 12 13; Cmp 3 12; Cmp 13
   14; Cmp 9 13; Cmp 11 14; Cmp 15 16; Cmp 17 19; Cmp 16 17; Cmp 18 27; Cmp 20 21; Cmp 18 20; Cmp 21
   27; Cmp 22 24; Cmp 23 25; Cmp 22 23; Cmp 18 22; Cmp 16 18; Cmp 17 22; Cmp 21 23; Cmp 24 25; Cmp
   20 24; Cmp 20 21; Cmp 23 24; Cmp 25 27; Cmp 26 28; Cmp 19 26; Cmp 29 30; Cmp 28 29; Cmp 25 28;
   Cmp 27 29; Rep [15; 18; 25; 26; 19; 30; 20; 24; 16; 29; 21; 22; 17; 28; 23; 27] [(15,16);
   (16,18); (16,17); (18,20); (18,22); (17,19); (17,21); (17,22); (19,25); (19,26); (20,21);
   (20,23); (22,26); (22,23); (21,25); (21,24); (26,28); (23,24); (23,28); (25,28); (25,27);
   (24,27); (28,29); (27,29); (29,30)] [21; 28; 18; 29; 24; 22; 16; 30; 25; 26; 19; 15; 27; 20; 17;
   23] 143; Rep [0; 5; 6; 1; 12; 7; 11; 2; 13; 9; 10; 3; 14; 4; 8] [(0,1); (1,2); (1,4); (2,6);
   (2,3); (2,8); (4,5); (4,6); (5,7); (5,8); (3,12); (3,9); (6,12); (6,7); (8,9); (8,10); (12,13);
   (7,13); (7,10); (9,11); (9,13); (10,11); (11,14); (13,14)] [8; 12; 6; 11; 7; 5; 2; 13; 9; 1; 14;
   3; 10; 4; 0] 159; Cmp 31 32; Cmp 33 35; Cmp 32 33; Cmp 34 43; Cmp 36 37; Cmp 34 36; Cmp 37 43;
   Cmp 38 40; Cmp 39 41; Cmp 38 39; Cmp 34 38; Cmp 32 34; Cmp 33 38; Cmp 37 39; Cmp 40 41; Cmp 36
   40; Cmp 36 37; Cmp 39 40; Cmp 41 43; Cmp 42 44; Cmp 35 42; Cmp 45 46; Cmp 44 45; Cmp 41 44; Cmp
   43 45; Rep [31; 34; 41; 42; 35; 46; 36; 40; 32; 45; 37; 38; 33; 44; 39; 43] [(31,32); (32,34);
   (32,33); (34,36); (34,38); (33,35); (33,37); (33,38); (35,41); (35,42); (36,37); (36,39);
   (38,42); (38,39); (37,41); (37,40); (42,44); (39,40); (39,44); (41,44); (41,43); (40,43);
   (44,45); (43,45); (45,46)] [37; 44; 34; 45; 40; 38; 32; 46; 41; 42; 35; 31; 43; 36; 33; 39] 174;
   Cmp 1 32; Cmp 2 33; Cmp 5 36; Cmp 10 40; Cmp 13 44; Cmp 14 45; Cmp 1 16; Cmp 3 19; Cmp 3 35; Cmp
   5 20; Cmp 8 21; Cmp 8 37; Cmp 9 25; Cmp 11 27; Cmp 13 28; Cmp 15 31; Cmp 0 15; Cmp 15 31; Cmp 5
   31; Cmp 16 32; Cmp 17 33; Cmp 2 17; Cmp 2 5; Cmp 18 34; Cmp 4 18; Cmp 4 15; Cmp 1 4; Cmp 2 4; Cmp
   3 15; Cmp 18 34; Cmp 19 35; Cmp 8 19; Cmp 20 36; Cmp 15 20; Cmp 21 37; Cmp 13 37; Cmp 13 34; Cmp
   19 21; Cmp 22 38; Cmp 6 22; Cmp 6 16; Cmp 3 6; Cmp 3 4; Cmp 5 6; Cmp 4 5; Cmp 22 38; Cmp 23 39;
   Cmp 7 39; Cmp 7 23; Cmp 7 33; Cmp 7 18; Cmp 7 15; Cmp 6 7; Cmp 24 40; Cmp 10 24; Cmp 25 41; Cmp 9
   25; Cmp 9 32; Cmp 9 16; Cmp 15 16; Cmp 16 18; Cmp 26 42; Cmp 12 42; Cmp 12 26; Cmp 12 31; Cmp 12
   17; Cmp 9 12; Cmp 7 12; Cmp 22 31; Cmp 10 31; Cmp 13 22; Cmp 8 13; Cmp 8 15; Cmp 8 9; Cmp 6 8;
   Cmp 5 6; Cmp 12 15; Cmp 19 22; Cmp 13 19; Cmp 26 39; Cmp 23 26; Cmp 23 32; Cmp 27 43; Cmp 11 27;
   Cmp 11 33; Cmp 11 20; Cmp 27 37; Cmp 28 44; Cmp 29 45; Cmp 14 29; Cmp 14 38; Cmp 14 21; Cmp 14
   23; Cmp 11 14; Cmp 11 16; Cmp 14 18; Cmp 20 23; Cmp 21 32; Cmp 29 41; Cmp 29 38; Cmp 30 46; Cmp
   30 40; Cmp 30 35; Cmp 25 30; Cmp 25 36; Cmp 10 25; Cmp 10 17; Cmp 10 13; Cmp 10 11; Cmp 9 10; Cmp
   7 9; Cmp 7 8; Cmp 10 12; Cmp 9 10; Cmp 13 16; Cmp 11 13; Cmp 17 19; Cmp 14 17; Cmp 14 15; Cmp 11
   14; Cmp 11 12; Cmp 13 15; Cmp 13 14; Cmp 16 17; Cmp 18 19; Cmp 22 25; Cmp 28 35; Cmp 30 33; Cmp
   26 30; Cmp 31 36; Cmp 26 31; Cmp 22 26; Cmp 25 31; Cmp 28 36; Cmp 33 39; Cmp 30 33; Cmp 28 30;
   Cmp 33 36; Cmp 35 38; Cmp 40 44; Cmp 43 46; Cmp 42 43; Cmp 24 42; Cmp 24 34; Cmp 21 24; Cmp 20
   21; Cmp 20 22; Cmp 18 20; Cmp 16 18; Cmp 15 16; Cmp 17 20; Cmp 17 18; Cmp 19 22; Cmp 21 26; Cmp
   23 24; Cmp 23 25; Cmp 21 23; Cmp 19 21; Cmp 19 20; Cmp 22 23; Cmp 21 22; Cmp 24 31; Cmp 25 26;
   Cmp 32 34; Cmp 37 42; Cmp 29 37; Cmp 27 29; Cmp 27 32; Cmp 27 28; Cmp 24 27; Cmp 24 25; Cmp 23
   24; Cmp 26 27; Cmp 25 26; Cmp 28 31; Cmp 29 34; Cmp 29 33; Cmp 30 32; Cmp 29 30; Cmp 28 29; Cmp
   27 28; Cmp 30 31; Cmp 29 30; Cmp 34 36; Cmp 33 34; Cmp 37 39; Cmp 38 39; Cmp 36 38; Cmp 41 43;
   Cmp 40 41; Cmp 40 42; Cmp 35 40; Cmp 35 37; Cmp 32 35; Cmp 32 33; Cmp 31 32; Cmp 34 35; Cmp 33
   34; Cmp 36 37; Cmp 35 36; Cmp 38 40; Cmp 37 38; Cmp 39 42; Cmp 39 40; Cmp 45 46; Cmp 44 45; Cmp
   43 44; Cmp 41 43; Cmp 41 42].
Lemma check47 : check 47%nat 1 swaps47 plan47 = true.
Proof. vm_cast_no_check (eq_refl true). Qed.
Lemma sorts47 : sorts01 47%nat (map pn swaps47).
Proof. eapply check_sound; [vm_compute; reflexivity|exact check47]. Qed.

Definition plan48 : list op :=
  [Cmp 0 13; Cmp 1 12; Cmp 2 15; Cmp 3 14; Cmp 4 8; Rep [3; 14] [(3,14)] [3; 14] 51; Rep [4; 8]
   [(4,8)] [4; 8] 53; Cmp 5 6; Rep [0; 13] [(0,13)] [0; 13] 55; Rep [5; 6] [(5,6)] [5; 6] 57; Cmp 7
   11; Rep [1; 12] [(1,12)] [1; 12] 59; Rep [7; 11] [(7,11)] [7; 11] 61; Cmp 9 10; Rep [2; 15]
   [(2,15)] [2; 15] 63; Rep [9; 10] [(9,10)] [9; 10] 65; Cmp 16 29; Cmp 17 28; Cmp 18 31; Cmp 19 30;
   Cmp 20 24; Rep [19; 30] [(19,30)] [19; 30] 67; Rep [20; 24] [(20,24)] [20; 24] 69; Cmp 21 22; Rep
   [16; 29] [(16,29)] [16; 29] 71; Rep [21; 22] [(21,22)] [21; 22] 73; Cmp 23 27; Rep [17; 28]
   [(17,28)] [17; 28] 75; Rep [23; 27] [(23,27)] [23; 27] 77; Cmp 25 26; Rep [18; 31] [(18,31)] [18;
   31] 79; Rep [25; 26] [(25,26)] [25; 26] 81; Cmp 32 45; Cmp 33 44; Cmp 34 47; Cmp 35 46; Cmp 36
   40; Rep [35; 46] [(35,46)] [35; 46] 83; Rep [36; 40] [(36,40)] [36; 40] 85; Cmp 37 38; Rep [32;
   45] [(32,45)] [32; 45] 87; Rep [37; 38] [(37,38)] [37; 38] 89; Cmp 39 43; Rep [33; 44] [(33,44)]
   [33; 44] 91; Rep [39; 43] [(39,43)] [39; 43] 93; Cmp 41 42; Rep [34; 47] [(34,47)] [34; 47] 95;
   Rep [41; 42] [(41,42)] [41; 42] 97; Cmp 0 5; Cmp 6 13; Cmp 1 7; Cmp 11 12; Rep [0; 13; 5; 6]
   [(0,5); (0,6); (5,13); (6,13)] [5; 13; 0; 6] 99; Rep [1; 12; 7; 11] [(1,7); (1,11); (7,12);
   (11,12)] [7; 12; 1; 11] 103; Cmp 2 9; Cmp 10 15; Rep [2; 15; 9; 10] [(2,9); (2,10); (9,15);
   (10,15)] [9; 15; 2; 10] 107; Cmp 3 4; Cmp 8 14; Rep [3; 14; 4; 8] [(3,4); (3,8); (4,14); (8,14)]
   [4; 14; 3; 8] 111; Cmp 16 21; Cmp 22 29; Cmp 17 23; Cmp 27 28; Rep [16; 29; 21; 22] [(16,21);
   (16,22); (21,29); (22,29)] [21; 29; 16; 22] 115; Rep [17; 28; 23; 27] [(17,23); (17,27); (23,28);
   (27,28)] [23; 28; 17; 27] 119; Cmp 18 25; Cmp 26 31; Rep [18; 31; 25; 26] [(18,25); (18,26);
   (25,31); (26,31)] [25; 31; 18; 26] 123; Cmp 19 20; Cmp 24 30; Rep [19; 30; 20; 24] [(19,20);
   (19,24); (20,30); (24,30)] [20; 30; 19; 24] 127; Cmp 32 37; Cmp 38 45; Cmp 33 39; Cmp 43 44; Rep
   [32; 45; 37; 38] [(32,37); (32,38); (37,45); (38,45)] [37; 45; 32; 38] 131; Rep [33; 44; 39; 43]
   [(33,39); (33,43); (39,44); (43,44)] [39; 44; 33; 43] 135; Cmp 34 41; Cmp 42 47; Rep [34; 47; 41;
   42] [(34,41); (34,42); (41,47); (42,47)] [41; 47; 34; 42] 139; Cmp 35 36; Cmp 40 46; Rep [35; 46;
   36; 40] [(35,36); (35,40); (36,46); (40,46)] [36; 46; 35; 40] 143; Cmp 0 1; Cmp 12 13; Cmp 2 3;
   Cmp 14 15; Cmp 16 17; Cmp 28 29; Cmp 18 19; Cmp 30 31; Cmp 32 33; Cmp 44 45; Cmp 34 35; Cmp 46
   47; Cmp 0 2; Cmp 1 3; Cmp 1 2; Cmp 4 5; Cmp 6 8; Cmp 7 9; Cmp 6 7; Cmp 8 9; Cmp 10 11; Cmp 4 10;
   Cmp 4 6; Cmp 1 4; Cmp 2 6; Cmp 5 11; Cmp 5 7; Cmp 8 10; Cmp 5 8; Cmp 7 10; Cmp 9 11; Cmp 12 14;
   Cmp 3 12; Cmp 13 15; Cmp 13 14; Cmp 9 13; Cmp 11 14; Cmp 16 18; Cmp 17 19; Cmp 17 18; Cmp 20 21;
   Cmp 22 24; Cmp 23 25; Cmp 22 23; Cmp 24 25; Cmp 26 27; Cmp 20 26; Cmp 20 22; Cmp 17 20; Cmp 18
   22; Cmp 21 27; Cmp 21 23; Cmp 24 26; Cmp 21 24; Cmp 23 26; Cmp 25 27; Cmp 28 30; Cmp 19 28; Cmp
   29 31; Cmp 29 30; Cmp 25 29; Cmp 27 30; Rep [0; 13; 5; 6; 1; 12; 7; 11; 2; 15; 9; 10; 3; 14; 4;
   8] [(0,1); (1,2); (1,4); (2,6); (2,3); (2,8); (4,5); (4,6); (5,7); (5,8); (3,12); (3,9); (6,12);
   (6,7); (8,9); (8,10); (12,13); (7,13); (7,10); (9,13); (9,11); (10,11); (13,14); (11,14);
   (14,15)] [7; 13; 2; 11; 9; 5; 1; 15; 10; 12; 6; 14; 4; 0; 8; 3] 147; Rep [16; 29; 21; 22; 17; 28;
   23; 27; 18; 31; 25; 26; 19; 30; 20; 24] [(16,17); (17,18); (17,20); (18,22); (18,19); (18,24);
   (20,21); (20,22); (21,23); (21,24); (19,28); (19,25); (22,28); (22,23); (24,25); (24,26);
   (28,29); (23,29); (23,26); (25,29); (25,27); (26,27); (29,30); (27,30); (30,31)] [23; 29; 18; 27;
   25; 21; 17; 31; 26; 28; 22; 30; 20; 16; 24; 19] 163; Cmp 32 34; Cmp 33 35; Cmp 33 34; Cmp 36 37;
   Cmp 38 40; Cmp 39 41; Cmp 38 39; Cmp 40 41; Cmp 42 43; Cmp 36 42; Cmp 36 38; Cmp 33 36; Cmp 34
   38; Cmp 37 43; Cmp 37 39; Cmp 40 42; Cmp 37 40; Cmp 39 42; Cmp 41 43; Cmp 44 46; Cmp 35 44; Cmp
   45 47; Cmp 45 46; Cmp 41 45; Cmp 43 46; Rep [32; 45; 37; 38; 33; 44; 39; 43; 34; 47; 41; 42; 35;
   46; 36; 40] [(32,33); (33,34); (33,36); (34,38); (34,35); (34,40); (36,37); (36,38); (37,39);
   (37,40); (35,44); (35,41); (38,44); (38,39); (40,41); (40,42); (44,45); (39,45); (39,42);
   (41,45); (41,43); (42,43); (45,46); (43,46); (46,47)] [39; 45; 34; 43; 41; 37; 33; 47; 42; 44;
   38; 46; 36; 32; 40; 35] 179; Cmp 1 33; Cmp 2 34; Cmp 5 37; Cmp 10 42; Cmp 13 45; Cmp 14 46; Cmp 1
   17; Cmp 3 19; Cmp 3 35; Cmp 5 21; Cmp 8 24; Cmp 8 40; Cmp 9 25; Cmp 11 27; Cmp 13 29; Cmp 15 31;
   Cmp 16 32; Cmp 0 16; Cmp 16 32; Cmp 5 32; Cmp 17 33; Cmp 18 34; Cmp 2 18; Cmp 2 5; Cmp 19 35; Cmp
   8 19; Cmp 20 36; Cmp 4 20; Cmp 4 16; Cmp 1 4; Cmp 2 4; Cmp 3 16; Cmp 20 36; Cmp 21 37; Cmp 16 21;
   Cmp 22 38; Cmp 6 22; Cmp 6 17; Cmp 3 6; Cmp 3 4; Cmp 5 6; Cmp 4 5; Cmp 22 38; Cmp 23 39; Cmp 7
   39; Cmp 7 23; Cmp 7 34; Cmp 7 20; Cmp 7 16; Cmp 6 7; Cmp 24 40; Cmp 13 40; Cmp 13 36; Cmp 19 24;
   Cmp 25 41; Cmp 9 25; Cmp 9 33; Cmp 9 17; Cmp 16 17; Cmp 17 20; Cmp 26 42; Cmp 10 26; Cmp 27 43;
   Cmp 11 27; Cmp 11 34; Cmp 11 21; Cmp 27 40; Cmp 28 44; Cmp 12 44; Cmp 12 28; Cmp 12 32; Cmp 12
   18; Cmp 9 12; Cmp 7 12; Cmp 22 32; Cmp 10 32; Cmp 13 22; Cmp 8 13; Cmp 8 16; Cmp 8 9; Cmp 6 8;
   Cmp 5 6; Cmp 12 16; Cmp 19 22; Cmp 13 19; Cmp 28 39; Cmp 23 28; Cmp 23 33; Cmp 29 45; Cmp 30 46;
   Cmp 14 30; Cmp 14 38; Cmp 14 24; Cmp 14 23; Cmp 11 14; Cmp 11 17; Cmp 14 20; Cmp 21 23; Cmp 24
   33; Cmp 30 41; Cmp 30 38; Cmp 31 47; Cmp 15 31; Cmp 15 42; Cmp 15 35; Cmp 15 25; Cmp 15 37; Cmp
   10 15; Cmp 10 18; Cmp 10 13; Cmp 10 11; Cmp 9 10; Cmp 7 9; Cmp 7 8; Cmp 10 12; Cmp 9 10; Cmp 13
   17; Cmp 11 13; Cmp 15 22; Cmp 18 19; Cmp 14 18; Cmp 14 16; Cmp 11 14; Cmp 11 12; Cmp 13 16; Cmp
   13 14; Cmp 17 18; Cmp 19 20; Cmp 25 34; Cmp 25 28; Cmp 29 35; Cmp 31 43; Cmp 31 44; Cmp 26 31;
   Cmp 26 36; Cmp 24 26; Cmp 21 24; Cmp 23 26; Cmp 31 40; Cmp 30 31; Cmp 27 30; Cmp 32 37; Cmp 25
   32; Cmp 15 25; Cmp 15 21; Cmp 15 19; Cmp 15 17; Cmp 15 16; Cmp 18 19; Cmp 17 18; Cmp 20 21; Cmp
   22 32; Cmp 22 23; Cmp 24 25; Cmp 22 24; Cmp 20 22; Cmp 19 20; Cmp 21 24; Cmp 21 22; Cmp 23 25;
   Cmp 26 32; Cmp 29 37; Cmp 33 36; Cmp 27 33; Cmp 30 36; Cmp 34 39; Cmp 28 34; Cmp 28 29; Cmp 27
   28; Cmp 26 27; Cmp 23 26; Cmp 23 24; Cmp 25 27; Cmp 25 26; Cmp 28 32; Cmp 29 33; Cmp 31 39; Cmp
   34 37; Cmp 30 34; Cmp 29 30; Cmp 28 29; Cmp 27 28; Cmp 30 32; Cmp 29 30; Cmp 35 38; Cmp 36 37;
   Cmp 34 36; Cmp 38 39; Cmp 37 38; Cmp 41 44; Cmp 42 45; Cmp 41 42; Cmp 40 41; Cmp 35 40; Cmp 31
   35; Cmp 31 33; Cmp 31 34; Cmp 31 32; Cmp 33 36; Cmp 33 34; Cmp 35 37; Cmp 35 36; Cmp 38 40; Cmp
   37 38; Cmp 39 41; Cmp 39 40; Cmp 43 46; Cmp 43 45; Cmp 43 44; Cmp 42 43; Cmp 41 42].
Lemma check48 : check 48%nat 1 swaps48 plan48 = true.
Proof. vm_cast_no_check (eq_refl true). Qed.
Lemma sorts48 : sorts01 48%nat (map pn swaps48).
Proof. eapply check_sound; [vm_compute; reflexivity|exact check48]. Qed.

Definition plan49 : list op :=
  [Cmp 39 43; Cmp 25 31; Cmp 27 35; Cmp 42 44; Cmp 12 20; Cmp 3 11; Cmp 28 34; Rep [27; 35] [(27,35)]
   [27; 35] 52; Rep [28; 34] [(28,34)] [28; 34] 54; Cmp 13 19; Rep [12; 20] [(12,20)] [12; 20] 56;
   Rep [13; 19] [(13,19)] [13; 19] 58; Cmp 2 6; Cmp 29 33; Cmp 26 30; Rep [26; 30] [(26,30)] [26;
   30] 60; Rep [29; 33] [(29,33)] [29; 33] 62; Cmp 15 23; Cmp 4 10; Rep [3; 11] [(3,11)] [3; 11] 64;
   Rep [4; 10] [(4,10)] [4; 10] 66; Cmp 16 22; Rep [15; 23] [(15,23)] [15; 23] 68; Rep [16; 22]
   [(16,22)] [16; 22] 70; Cmp 38 45; Rep [38; 45] [(38,45)] [38; 45] 72; Rep [39; 43] [(39,43)] [39;
   43] 74; Cmp 36 48; Cmp 1 7; Cmp 5 9; Rep [2; 6] [(2,6)] [2; 6] 76; Rep [5; 9] [(5,9)] [5; 9] 78;
   Cmp 0 8; Rep [0; 8] [(0,8)] [0; 8] 80; Rep [1; 7] [(1,7)] [1; 7] 82; Cmp 14 18; Cmp 41 47; Rep
   [41; 47] [(41,47)] [41; 47] 84; Cmp 37 46; Rep [37; 46] [(37,46)] [37; 46] 86; Rep [42; 44]
   [(42,44)] [42; 44] 88; Cmp 24 32; Rep [24; 32] [(24,32)] [24; 32] 90; Rep [25; 31] [(25,31)] [25;
   31] 92; Cmp 17 21; Rep [14; 18] [(14,18)] [14; 18] 94; Rep [17; 21] [(17,21)] [17; 21] 96; Cmp 40
   47; Rep [36; 48] [(36,48)] [36; 48] 98; Rep [40; 41; 47] [(40,47); (41,47)] [47; 40; 41] 100; Cmp
   7 8; Cmp 0 1; Cmp 43 45; Cmp 38 39; Cmp 24 25; Cmp 31 32; Cmp 34 35; Cmp 27 28; Cmp 14 17; Cmp 18
   21; Cmp 44 46; Cmp 37 42; Rep [42; 44; 37; 46] [(37,42); (37,44); (42,46); (44,46)] [42; 44; 46;
   37] 103; Rep [39; 43; 38; 45] [(38,39); (38,43); (39,45); (43,45)] [39; 43; 45; 38] 107; Cmp 26
   29; Cmp 30 33; Rep [24; 32; 25; 31] [(24,25); (24,31); (25,32); (31,32)] [25; 32; 24; 31] 111;
   Rep [26; 30; 29; 33] [(26,30); (26,29); (30,33); (29,33)] [30; 29; 26; 33] 115; Rep [28; 34; 27;
   35] [(27,28); (27,34); (28,35); (34,35)] [28; 34; 35; 27] 119; Cmp 12 13; Cmp 19 20; Rep [12; 20;
   13; 19] [(12,13); (12,19); (13,20); (19,20)] [13; 20; 12; 19] 123; Rep [14; 18; 17; 21] [(14,18);
   (14,17); (18,21); (17,21)] [18; 17; 14; 21] 127; Cmp 3 4; Cmp 10 11; Cmp 15 16; Cmp 22 23; Rep
   [15; 23; 16; 22] [(15,16); (15,22); (16,23); (22,23)] [16; 23; 15; 22] 131; Cmp 6 9; Cmp 2 5; Rep
   [1; 7; 0; 8] [(0,1); (0,7); (1,8); (7,8)] [1; 7; 8; 0] 135; Rep [2; 6; 5; 9] [(2,6); (2,5);
   (6,9); (5,9)] [6; 5; 2; 9] 139; Rep [3; 11; 4; 10] [(3,4); (3,10); (4,11); (10,11)] [4; 11; 3;
   10] 143; Cmp 47 48; Cmp 36 40; Cmp 39 42; Cmp 37 38; Cmp 43 44; Cmp 45 46; Rep [40; 41; 47; 36;
   48] [(41,48); (36,40); (36,47); (40,48); (47,48)] [40; 48; 47; 41; 36] 147; Rep [39; 43; 38; 45;
   42; 44; 37; 46] [(37,39); (37,43); (37,38); (39,45); (39,42); (43,45); (43,44); (38,42); (38,44);
   (45,46); (42,46); (44,46)] [39; 44; 43; 46; 37; 45; 38; 42] 152; Cmp 17 22; Cmp 21 23; Cmp 21 22;
   Cmp 1 6; Cmp 0 2; Cmp 1 2; Cmp 24 26; Cmp 25 30; Cmp 25 26; Cmp 41 45; Cmp 36 41; Cmp 36 37; Cmp
   38 41; Cmp 40 42; Cmp 40 43; Cmp 38 40; Cmp 44 47; Cmp 39 44; Cmp 37 39; Cmp 37 38; Cmp 39 40;
   Cmp 38 39; Cmp 42 47; Cmp 43 44; Cmp 46 48; Cmp 45 46; Cmp 42 45; Cmp 41 42; Cmp 41 43; Cmp 40
   41; Cmp 39 40; Cmp 42 44; Cmp 42 43; Cmp 41 42; Cmp 46 47; Cmp 45 46; Cmp 44 45; Cmp 17 19; Cmp
   12 14; Cmp 12 15; Cmp 13 18; Cmp 13 14; Cmp 15 17; Cmp 14 17; Cmp 16 18; Cmp 13 16; Cmp 13 15;
   Cmp 14 15; Cmp 16 17; Cmp 19 22; Cmp 20 23; Cmp 18 20; Cmp 18 21; Cmp 18 19; Cmp 16 18; Cmp 15
   16; Cmp 17 19; Cmp 17 18; Cmp 20 22; Cmp 20 21; Cmp 19 20; Rep [14; 18; 17; 21; 15; 23; 16; 22;
   12; 20; 13; 19] [(12,13); (13,14); (14,15); (15,16); (16,17); (17,18); (18,19); (19,20); (20,21);
   (21,22); (22,23)] [18; 21; 14; 23; 20; 16; 12; 22; 19; 17; 15; 13] 160; Rep [40; 41; 47; 36; 48;
   39; 43; 38; 45; 42; 44; 37; 46] [(36,37); (37,38); (38,39); (39,40); (40,41); (41,42); (42,43);
   (43,44); (44,45); (45,46); (46,47); (47,48)] [42; 45; 39; 47; 43; 40; 37; 48; 46; 44; 41; 38; 36]
   172; Cmp 9 11; Cmp 0 3; Cmp 4 6; Cmp 1 4; Cmp 5 10; Cmp 5 7; Cmp 3 5; Cmp 1 3; Cmp 2 5; Cmp 2 3;
   Cmp 4 5; Cmp 8 11; Cmp 6 8; Cmp 9 10; Cmp 6 9; Cmp 7 10; Cmp 6 7; Cmp 4 6; Cmp 3 4; Cmp 5 7; Cmp
   5 6; Cmp 8 10; Cmp 8 9; Cmp 7 8; Rep [1; 7; 0; 8; 2; 6; 5; 9; 3; 11; 4; 10] [(0,1); (1,2); (2,3);
   (3,4); (4,5); (5,6); (6,7); (7,8); (8,9); (9,10); (10,11)] [6; 9; 2; 11; 7; 4; 1; 10; 8; 5; 3; 0]
   185; Cmp 2 14; Cmp 1 13; Cmp 3 15; Cmp 9 21; Cmp 10 22; Cmp 11 23; Cmp 33 35; Cmp 24 27; Cmp 28
   30; Cmp 25 28; Cmp 29 34; Cmp 29 31; Cmp 27 29; Cmp 25 27; Cmp 26 29; Cmp 26 27; Cmp 28 29; Cmp
   32 35; Cmp 30 32; Cmp 33 34; Cmp 30 33; Cmp 31 34; Cmp 30 31; Cmp 28 30; Cmp 27 28; Cmp 29 31;
   Cmp 29 30; Cmp 32 34; Cmp 32 33; Cmp 31 32; Rep [24; 32; 25; 31; 26; 30; 29; 33; 28; 34; 27; 35]
   [(24,25); (25,26); (26,27); (27,28); (28,29); (29,30); (30,31); (31,32); (32,33); (33,34);
   (34,35)] [30; 33; 26; 34; 32; 28; 24; 35; 31; 29; 27; 25] 197; Cmp 33 45; Cmp 25 37; Cmp 26 38;
   Cmp 27 39; Cmp 34 46; Cmp 35 47; Cmp 5 29; Cmp 0 24; Cmp 1 25; Cmp 2 26; Cmp 3 27; Cmp 4 28; Cmp
   4 40; Cmp 6 30; Cmp 7 31; Cmp 8 32; Cmp 9 33; Cmp 10 34; Cmp 11 35; Cmp 12 36; Cmp 0 12; Cmp 13
   37; Cmp 9 37; Cmp 13 25; Cmp 9 25; Cmp 14 38; Cmp 10 38; Cmp 14 26; Cmp 10 26; Cmp 15 39; Cmp 11
   39; Cmp 15 27; Cmp 11 27; Cmp 16 28; Cmp 17 41; Cmp 5 17; Cmp 5 13; Cmp 9 13; Cmp 3 9; Cmp 3 5;
   Cmp 18 42; Cmp 6 18; Cmp 6 14; Cmp 10 14; Cmp 19 43; Cmp 7 19; Cmp 7 15; Cmp 11 15; Cmp 20 48;
   Cmp 8 20; Cmp 21 45; Cmp 21 33; Cmp 21 37; Cmp 22 46; Cmp 22 34; Cmp 22 38; Cmp 23 47; Cmp 23 35;
   Cmp 23 39; Cmp 24 36; Cmp 12 24; Cmp 28 44; Cmp 8 28; Cmp 8 24; Cmp 29 41; Cmp 17 29; Cmp 17 25;
   Cmp 13 17; Cmp 7 13; Cmp 7 9; Cmp 11 17; Cmp 21 29; Cmp 21 25; Cmp 30 42; Cmp 18 30; Cmp 18 26;
   Cmp 14 18; Cmp 22 30; Cmp 22 26; Cmp 31 43; Cmp 19 31; Cmp 19 27; Cmp 15 19; Cmp 15 21; Cmp 19
   25; Cmp 19 21; Cmp 23 31; Cmp 23 27; Cmp 32 48; Cmp 20 32; Cmp 32 44; Cmp 33 41; Cmp 33 37; Cmp
   29 33; Cmp 23 29; Cmp 23 25; Cmp 27 33; Cmp 34 42; Cmp 34 38; Cmp 30 34; Cmp 35 43; Cmp 35 39;
   Cmp 31 35; Cmp 31 37; Cmp 31 33; Cmp 35 41; Cmp 36 40; Cmp 16 36; Cmp 4 16; Cmp 4 12; Cmp 1 4;
   Cmp 8 12; Cmp 2 8; Cmp 2 4; Cmp 20 40; Cmp 28 36; Cmp 24 28; Cmp 16 24; Cmp 12 16; Cmp 6 12; Cmp
   6 8; Cmp 3 6; Cmp 3 4; Cmp 5 8; Cmp 5 6; Cmp 10 16; Cmp 10 12; Cmp 7 10; Cmp 7 8; Cmp 9 12; Cmp 9
   10; Cmp 13 16; Cmp 20 28; Cmp 20 24; Cmp 14 20; Cmp 11 14; Cmp 11 13; Cmp 11 12; Cmp 14 16; Cmp
   13 14; Cmp 15 20; Cmp 18 24; Cmp 17 18; Cmp 15 17; Cmp 15 16; Cmp 18 20; Cmp 17 18; Cmp 32 40;
   Cmp 32 36; Cmp 28 32; Cmp 22 28; Cmp 22 24; Cmp 19 22; Cmp 19 20; Cmp 21 24; Cmp 21 22; Cmp 26
   32; Cmp 26 28; Cmp 23 26; Cmp 23 24; Cmp 25 28; Cmp 25 26; Cmp 27 32; Cmp 30 36; Cmp 29 30; Cmp
   27 29; Cmp 27 28; Cmp 30 32; Cmp 29 30; Cmp 34 40; Cmp 34 36; Cmp 31 34; Cmp 31 32; Cmp 33 36;
   Cmp 33 34; Cmp 37 40; Cmp 38 44; Cmp 35 38; Cmp 35 37; Cmp 35 36; Cmp 38 40; Cmp 37 38; Cmp 39
   45; Cmp 42 48; Cmp 39 42; Cmp 39 44; Cmp 41 44; Cmp 39 41; Cmp 39 40; Cmp 42 44; Cmp 43 46; Cmp
   43 48; Cmp 45 48; Cmp 43 45; Cmp 43 44; Cmp 46 48; Cmp 47 48].
Lemma check49 : check 49%nat 1 swaps49 plan49 = true.
Proof. vm_cast_no_check (eq_refl true). Qed.
Lemma sorts49 : sorts01 49%nat (map pn swaps49).
Proof. eapply check_sound; [vm_compute; reflexivity|exact check49]. Qed.

Definition plan50 : list op :=
  [Cmp 2 6; Cmp 3 11; Cmp 18 20; Cmp 12 24; Cmp 5 9; Rep [2; 6] [(2,6)] [2; 6] 53; Rep [5; 9] [(5,9)]
   [5; 9] 55; Cmp 30 34; Cmp 28 36; Cmp 26 32; Cmp 25 33; Rep [25; 33] [(25,33)] [25; 33] 57; Rep
   [26; 32] [(26,32)] [26; 32] 59; Cmp 17 23; Rep [17; 23] [(17,23)] [17; 23] 61; Cmp 14 21; Cmp 4
   10; Rep [3; 11] [(3,11)] [3; 11] 63; Rep [4; 10] [(4,10)] [4; 10] 65; Cmp 1 7; Cmp 13 22; Rep
   [13; 22] [(13,22)] [13; 22] 67; Rep [18; 20] [(18,20)] [18; 20] 69; Cmp 38 47; Cmp 29 35; Rep
   [28; 36] [(28,36)] [28; 36] 71; Rep [29; 35] [(29,35)] [29; 35] 73; Cmp 15 19; Rep [14; 21]
   [(14,21)] [14; 21] 75; Rep [15; 19] [(15,19)] [15; 19] 77; Cmp 16 23; Rep [12; 24] [(12,24)] [12;
   24] 79; Rep [16; 17; 23] [(16,23); (17,23)] [23; 16; 17] 81; Cmp 39 46; Cmp 42 48; Rep [42; 48]
   [(42,48)] [42; 48] 84; Cmp 0 8; Rep [0; 8] [(0,8)] [0; 8] 86; Rep [1; 7] [(1,7)] [1; 7] 88; Cmp
   41 48; Cmp 40 44; Rep [39; 46] [(39,46)] [39; 46] 90; Rep [40; 44] [(40,44)] [40; 44] 92; Cmp 27
   31; Rep [27; 31] [(27,31)] [27; 31] 94; Rep [30; 34] [(30,34)] [30; 34] 96; Cmp 0 1; Cmp 7 8; Cmp
   43 45; Rep [38; 47] [(38,47)] [38; 47] 98; Rep [43; 45] [(43,45)] [43; 45] 100; Cmp 6 9; Cmp 2 5;
   Rep [0; 8; 1; 7] [(0,1); (0,7); (1,8); (7,8)] [1; 8; 0; 7] 102; Rep [2; 6; 5; 9] [(2,6); (2,5);
   (6,9); (5,9)] [6; 5; 2; 9] 106; Cmp 20 22; Cmp 13 18; Cmp 3 4; Cmp 10 11; Rep [3; 11; 4; 10]
   [(3,4); (3,10); (4,11); (10,11)] [4; 11; 3; 10] 110; Cmp 37 49; Rep [37; 49] [(37,49)] [37; 49]
   114; Rep [41; 42; 48] [(41,48); (42,48)] [48; 41; 42] 116; Cmp 19 21; Cmp 14 15; Rep [18; 20; 13;
   22] [(13,18); (13,20); (18,22); (20,22)] [18; 20; 22; 13] 119; Rep [15; 19; 14; 21] [(14,15);
   (14,19); (15,21); (19,21)] [15; 19; 21; 14] 123; Cmp 45 47; Cmp 38 43; Cmp 31 34; Cmp 27 30; Cmp
   39 40; Cmp 44 46; Rep [43; 45; 38; 47] [(38,43); (38,45); (43,47); (45,47)] [43; 45; 47; 38] 127;
   Rep [39; 46; 40; 44] [(39,40); (39,44); (40,46); (44,46)] [40; 46; 39; 44] 131; Cmp 32 33; Cmp 25
   26; Rep [26; 32; 25; 33] [(25,26); (25,32); (26,33); (32,33)] [26; 32; 33; 25] 135; Rep [27; 31;
   30; 34] [(27,31); (27,30); (31,34); (30,34)] [31; 30; 27; 34] 139; Cmp 28 29; Cmp 35 36; Rep [28;
   36; 29; 35] [(28,29); (28,35); (29,36); (35,36)] [29; 36; 28; 35] 143; Cmp 12 16; Cmp 23 24; Cmp
   37 41; Cmp 48 49; Cmp 44 45; Cmp 38 39; Cmp 40 43; Cmp 46 47; Rep [37; 49; 41; 42; 48] [(37,41);
   (37,48); (42,49); (41,49); (48,49)] [41; 49; 37; 42; 48] 147; Rep [39; 46; 40; 44; 43; 45; 38;
   47] [(38,39); (38,40); (38,44); (39,43); (39,45); (40,46); (40,43); (44,46); (44,45); (46,47);
   (43,47); (45,47)] [39; 46; 40; 47; 38; 43; 44; 45] 152; Cmp 25 27; Cmp 26 31; Cmp 26 27; Cmp 5
   10; Cmp 9 11; Cmp 9 10; Cmp 19 20; Cmp 13 14; Cmp 15 18; Cmp 21 22; Rep [12; 24; 16; 17; 23]
   [(12,16); (12,23); (17,24); (16,24); (23,24)] [16; 24; 12; 17; 23] 160; Rep [15; 19; 14; 21; 18;
   20; 13; 22] [(13,15); (13,19); (13,14); (15,21); (15,18); (19,21); (19,20); (14,18); (14,20);
   (21,22); (18,22); (20,22)] [15; 20; 19; 22; 13; 21; 14; 18] 165; Cmp 17 21; Cmp 12 17; Cmp 12 13;
   Cmp 14 17; Cmp 16 18; Cmp 16 19; Cmp 14 16; Cmp 20 23; Cmp 15 20; Cmp 13 15; Cmp 13 14; Cmp 15
   16; Cmp 14 15; Cmp 18 23; Cmp 19 20; Cmp 22 24; Cmp 21 22; Cmp 18 21; Cmp 17 18; Cmp 17 19; Cmp
   16 17; Cmp 15 16; Cmp 18 20; Cmp 18 19; Cmp 17 18; Cmp 22 23; Cmp 21 22; Cmp 20 21; Cmp 47 49;
   Cmp 41 43; Cmp 41 44; Cmp 42 46; Cmp 37 42; Cmp 37 38; Cmp 39 42; Cmp 39 41; Cmp 45 48; Cmp 40
   45; Cmp 38 40; Cmp 38 39; Cmp 40 41; Cmp 39 40; Cmp 43 48; Cmp 44 45; Cmp 46 47; Cmp 43 46; Cmp
   42 43; Cmp 42 44; Cmp 41 42; Cmp 40 41; Cmp 43 45; Cmp 43 44; Cmp 42 43; Cmp 47 48; Cmp 46 47;
   Cmp 45 46; Rep [12; 24; 16; 17; 23; 15; 19; 14; 21; 18; 20; 13; 22] [(12,13); (13,14); (14,15);
   (15,16); (16,17); (17,18); (18,19); (19,20); (20,21); (21,22); (22,23); (23,24)] [18; 21; 15; 23;
   19; 16; 13; 24; 22; 20; 17; 14; 12] 173; Rep [39; 46; 40; 44; 43; 45; 38; 47; 37; 49; 41; 42; 48]
   [(37,38); (38,39); (39,40); (40,41); (41,42); (42,43); (43,44); (44,45); (45,46); (46,47);
   (47,48); (48,49)] [43; 46; 39; 48; 44; 41; 38; 49; 47; 45; 42; 40; 37] 186; Cmp 20 45; Cmp 12 37;
   Cmp 16 41; Cmp 17 42; Cmp 18 43; Cmp 19 44; Cmp 5 7; Cmp 0 2; Cmp 0 3; Cmp 1 6; Cmp 1 2; Cmp 3 5;
   Cmp 2 5; Cmp 4 6; Cmp 1 4; Cmp 1 3; Cmp 2 3; Cmp 4 5; Cmp 7 10; Cmp 8 11; Cmp 6 8; Cmp 6 9; Cmp 6
   7; Cmp 4 6; Cmp 3 4; Cmp 5 7; Cmp 5 6; Cmp 8 10; Cmp 8 9; Cmp 7 8; Rep [2; 6; 5; 9; 3; 11; 4; 10;
   0; 8; 1; 7] [(0,1); (1,2); (2,3); (3,4); (4,5); (5,6); (6,7); (7,8); (8,9); (9,10); (10,11)] [6;
   9; 2; 11; 8; 4; 0; 10; 7; 5; 3; 1] 199; Cmp 25 28; Cmp 29 31; Cmp 26 29; Cmp 30 35; Cmp 30 32;
   Cmp 28 30; Cmp 26 28; Cmp 27 30; Cmp 27 28; Cmp 29 30; Cmp 34 36; Cmp 33 36; Cmp 31 33; Cmp 34
   35; Cmp 31 34; Cmp 32 35; Cmp 31 32; Cmp 29 31; Cmp 28 29; Cmp 30 32; Cmp 30 31; Cmp 33 35; Cmp
   33 34; Cmp 32 33; Rep [26; 32; 25; 33; 27; 31; 30; 34; 28; 36; 29; 35] [(25,26); (26,27);
   (27,28); (28,29); (29,30); (30,31); (31,32); (32,33); (33,34); (34,35); (35,36)] [31; 34; 27; 36;
   32; 29; 26; 35; 33; 30; 28; 25] 211; Cmp 5 30; Cmp 0 25; Cmp 4 29; Cmp 6 31; Cmp 7 32; Cmp 5 17;
   Cmp 0 12; Cmp 1 13; Cmp 2 14; Cmp 3 15; Cmp 4 37; Cmp 4 12; Cmp 6 18; Cmp 7 19; Cmp 8 49; Cmp 9
   21; Cmp 10 22; Cmp 11 23; Cmp 16 25; Cmp 24 33; Cmp 8 24; Cmp 8 16; Cmp 4 8; Cmp 25 41; Cmp 16
   25; Cmp 26 38; Cmp 1 26; Cmp 1 4; Cmp 13 38; Cmp 13 26; Cmp 5 13; Cmp 27 39; Cmp 2 27; Cmp 14 39;
   Cmp 14 27; Cmp 6 14; Cmp 28 40; Cmp 3 28; Cmp 15 40; Cmp 15 28; Cmp 7 15; Cmp 29 45; Cmp 20 29;
   Cmp 12 20; Cmp 8 12; Cmp 2 8; Cmp 2 4; Cmp 5 8; Cmp 29 37; Cmp 20 29; Cmp 16 20; Cmp 12 16; Cmp 6
   12; Cmp 6 8; Cmp 30 42; Cmp 17 30; Cmp 31 43; Cmp 18 31; Cmp 32 44; Cmp 19 32; Cmp 33 49; Cmp 24
   33; Cmp 24 41; Cmp 24 25; Cmp 24 29; Cmp 20 24; Cmp 25 37; Cmp 25 29; Cmp 33 45; Cmp 33 41; Cmp
   33 37; Cmp 34 46; Cmp 9 34; Cmp 9 38; Cmp 9 26; Cmp 9 13; Cmp 3 9; Cmp 3 6; Cmp 3 5; Cmp 3 4; Cmp
   6 8; Cmp 9 12; Cmp 17 26; Cmp 13 17; Cmp 7 13; Cmp 21 46; Cmp 21 34; Cmp 21 38; Cmp 21 30; Cmp 21
   26; Cmp 34 42; Cmp 34 38; Cmp 30 34; Cmp 35 47; Cmp 10 35; Cmp 10 39; Cmp 10 27; Cmp 10 14; Cmp
   10 16; Cmp 7 10; Cmp 7 12; Cmp 7 9; Cmp 7 8; Cmp 10 12; Cmp 18 27; Cmp 14 18; Cmp 14 20; Cmp 14
   16; Cmp 18 24; Cmp 22 47; Cmp 22 35; Cmp 22 39; Cmp 22 31; Cmp 22 27; Cmp 22 25; Cmp 27 29; Cmp
   35 43; Cmp 35 39; Cmp 31 35; Cmp 31 33; Cmp 35 37; Cmp 36 48; Cmp 11 36; Cmp 11 40; Cmp 11 28;
   Cmp 11 15; Cmp 11 17; Cmp 11 13; Cmp 11 14; Cmp 11 12; Cmp 13 16; Cmp 13 14; Cmp 17 20; Cmp 19
   28; Cmp 15 19; Cmp 15 21; Cmp 15 18; Cmp 15 17; Cmp 15 16; Cmp 18 20; Cmp 17 18; Cmp 19 26; Cmp
   19 24; Cmp 21 22; Cmp 19 21; Cmp 19 20; Cmp 22 24; Cmp 21 22; Cmp 23 48; Cmp 23 36; Cmp 23 40;
   Cmp 23 32; Cmp 23 28; Cmp 23 30; Cmp 23 25; Cmp 26 27; Cmp 23 26; Cmp 23 24; Cmp 25 27; Cmp 25
   26; Cmp 28 34; Cmp 28 29; Cmp 30 31; Cmp 28 30; Cmp 27 28; Cmp 29 31; Cmp 29 30; Cmp 33 34; Cmp
   36 44; Cmp 36 40; Cmp 32 36; Cmp 32 38; Cmp 32 35; Cmp 32 33; Cmp 31 32; Cmp 34 35; Cmp 33 34;
   Cmp 36 42; Cmp 37 38; Cmp 39 41; Cmp 36 39; Cmp 36 37; Cmp 35 36; Cmp 38 39; Cmp 37 38; Cmp 40
   46; Cmp 41 42; Cmp 43 45; Cmp 40 43; Cmp 40 41; Cmp 39 40; Cmp 42 43; Cmp 41 42; Cmp 45 46; Cmp
   44 46; Cmp 48 49; Cmp 47 48; Cmp 44 47; Cmp 44 45; Cmp 43 44; Cmp 46 47; Cmp 47 48].
Lemma check50 : check 50%nat 1 swaps50 plan50 = true.
Proof. vm_cast_no_check (eq_refl true). Qed.
Lemma sorts50 : sorts01 50%nat (map pn swaps50).
Proof. eapply check_sound; [vm_compute; reflexivity|exact check50]. Qed.

Definition plan51 : list op :=
  [Cmp 40 47; Cmp 44 46; Cmp 30 36; Rep [30; 36] [(30,36)] [30; 36] 54; Cmp 38 50; Cmp 25 37; Cmp 13
   22; Cmp 14 21; Cmp 31 33; Cmp 27 34; Cmp 39 48; Rep [39; 48] [(39,48)] [39; 48] 56; Rep [44; 46]
   [(44,46)] [44; 46] 58; Cmp 5 9; Cmp 28 32; Rep [27; 34] [(27,34)] [27; 34] 60; Rep [28; 32]
   [(28,32)] [28; 32] 62; Cmp 4 10; Cmp 3 11; Rep [3; 11] [(3,11)] [3; 11] 64; Rep [4; 10] [(4,10)]
   [4; 10] 66; Cmp 2 6; Rep [2; 6] [(2,6)] [2; 6] 68; Rep [5; 9] [(5,9)] [5; 9] 70; Cmp 15 19; Rep
   [14; 21] [(14,21)] [14; 21] 72; Rep [15; 19] [(15,19)] [15; 19] 74; Cmp 0 8; Cmp 18 20; Rep [13;
   22] [(13,22)] [13; 22] 76; Rep [18; 20] [(18,20)] [18; 20] 78; Cmp 12 24; Cmp 17 23; Rep [17; 23]
   [(17,23)] [17; 23] 80; Cmp 43 49; Rep [43; 49] [(43,49)] [43; 49] 82; Cmp 16 23; Rep [12; 24]
   [(12,24)] [12; 24] 84; Rep [16; 17; 23] [(16,23); (17,23)] [23; 16; 17] 86; Cmp 1 7; Rep [0; 8]
   [(0,8)] [0; 8] 89; Rep [1; 7] [(1,7)] [1; 7] 91; Cmp 26 35; Rep [26; 35] [(26,35)] [26; 35] 93;
   Rep [31; 33] [(31,33)] [31; 33] 95; Cmp 32 34; Cmp 27 28; Cmp 29 36; Rep [25; 37] [(25,37)] [25;
   37] 97; Rep [29; 30; 36] [(29,36); (30,36)] [36; 29; 30] 99; Cmp 42 49; Rep [38; 50] [(38,50)]
   [38; 50] 102; Rep [42; 43; 49] [(42,49); (43,49)] [49; 42; 43] 104; Cmp 13 18; Cmp 20 22; Cmp 10
   11; Cmp 3 4; Cmp 7 8; Cmp 0 1; Cmp 41 45; Rep [40; 47] [(40,47)] [40; 47] 107; Rep [41; 45]
   [(41,45)] [41; 45] 109; Cmp 14 15; Cmp 19 21; Rep [13; 22; 18; 20] [(13,18); (13,20); (18,22);
   (20,22)] [18; 22; 13; 20] 111; Rep [14; 21; 15; 19] [(14,15); (14,19); (15,21); (19,21)] [15; 21;
   14; 19] 115; Cmp 39 44; Cmp 46 48; Cmp 33 35; Cmp 26 31; Rep [31; 33; 26; 35] [(26,31); (26,33);
   (31,35); (33,35)] [31; 33; 35; 26] 119; Rep [28; 32; 27; 34] [(27,28); (27,32); (28,34); (32,34)]
   [28; 32; 34; 27] 123; Cmp 6 9; Cmp 2 5; Rep [1; 7; 0; 8] [(0,1); (0,7); (1,8); (7,8)] [1; 7; 8;
   0] 127; Rep [2; 6; 5; 9] [(2,6); (2,5); (6,9); (5,9)] [6; 5; 2; 9] 131; Rep [4; 10; 3; 11]
   [(3,4); (3,10); (4,11); (10,11)] [4; 10; 11; 3] 135; Cmp 45 47; Cmp 40 41; Rep [39; 48; 44; 46]
   [(39,44); (39,46); (44,48); (46,48)] [44; 48; 39; 46] 139; Rep [41; 45; 40; 47] [(40,41);
   (40,45); (41,47); (45,47)] [41; 45; 47; 40] 143; Cmp 49 50; Cmp 38 42; Cmp 23 24; Cmp 12 16; Cmp
   25 29; Cmp 36 37; Cmp 1 6; Cmp 0 2; Cmp 1 2; Cmp 28 31; Cmp 26 27; Cmp 32 33; Cmp 34 35; Rep [25;
   37; 29; 30; 36] [(25,29); (25,36); (30,37); (29,37); (36,37)] [29; 37; 25; 30; 36] 147; Rep [28;
   32; 27; 34; 31; 33; 26; 35] [(26,28); (26,32); (26,27); (28,34); (28,31); (32,34); (32,33);
   (27,31); (27,33); (34,35); (31,35); (33,35)] [28; 33; 32; 35; 26; 34; 27; 31] 152; Cmp 39 40; Cmp
   41 44; Cmp 45 46; Cmp 47 48; Rep [42; 43; 49; 38; 50] [(43,50); (38,42); (38,49); (42,50);
   (49,50)] [42; 50; 49; 43; 38] 160; Rep [39; 48; 44; 46; 41; 45; 40; 47] [(39,41); (39,45);
   (39,40); (41,44); (41,47); (45,46); (45,47); (40,44); (40,46); (44,48); (46,48); (47,48)] [44;
   46; 45; 48; 41; 47; 39; 40] 165; Cmp 21 22; Cmp 13 14; Cmp 15 18; Cmp 19 20; Rep [16; 17; 23; 12;
   24] [(17,24); (12,16); (12,23); (16,24); (23,24)] [16; 24; 23; 17; 12] 173; Rep [14; 21; 15; 19;
   13; 22; 18; 20] [(13,14); (13,15); (13,19); (14,18); (14,20); (15,21); (15,18); (19,21); (19,20);
   (21,22); (18,22); (20,22)] [14; 21; 15; 22; 13; 18; 19; 20] 178; Cmp 20 23; Cmp 15 20; Cmp 16 18;
   Cmp 16 19; Cmp 17 21; Cmp 12 17; Cmp 12 13; Cmp 13 15; Cmp 14 17; Cmp 14 16; Cmp 13 14; Cmp 15
   16; Cmp 14 15; Cmp 18 23; Cmp 19 20; Cmp 22 24; Cmp 21 22; Cmp 18 21; Cmp 17 18; Cmp 17 19; Cmp
   16 17; Cmp 15 16; Cmp 18 20; Cmp 18 19; Cmp 17 18; Cmp 22 23; Cmp 21 22; Cmp 20 21; Cmp 48 50;
   Cmp 42 44; Cmp 42 45; Cmp 43 47; Cmp 38 43; Cmp 38 39; Cmp 40 43; Cmp 40 42; Cmp 46 49; Cmp 41
   46; Cmp 39 41; Cmp 39 40; Cmp 41 42; Cmp 40 41; Cmp 44 49; Cmp 45 46; Cmp 47 48; Cmp 44 47; Cmp
   43 44; Cmp 43 45; Cmp 42 43; Cmp 41 42; Cmp 44 46; Cmp 44 45; Cmp 43 44; Cmp 48 49; Cmp 47 48;
   Cmp 46 47; Rep [14; 21; 15; 19; 13; 22; 18; 20; 16; 17; 23; 12; 24] [(12,13); (13,14); (14,15);
   (15,16); (16,17); (17,18); (18,19); (19,20); (20,21); (21,22); (22,23); (23,24)] [18; 21; 14; 23;
   19; 16; 13; 24; 22; 20; 17; 15; 12] 186; Rep [39; 48; 44; 46; 41; 45; 40; 47; 42; 43; 49; 38; 50]
   [(38,39); (39,40); (40,41); (41,42); (42,43); (43,44); (44,45); (45,46); (46,47); (47,48);
   (48,49); (49,50)] [44; 48; 41; 49; 46; 42; 39; 50; 47; 45; 43; 40; 38] 199; Cmp 19 45; Cmp 12 38;
   Cmp 16 42; Cmp 17 43; Cmp 18 44; Cmp 20 46; Cmp 33 36; Cmp 28 33; Cmp 29 31; Cmp 29 32; Cmp 30
   34; Cmp 25 30; Cmp 25 26; Cmp 26 28; Cmp 27 30; Cmp 27 29; Cmp 26 27; Cmp 28 29; Cmp 27 28; Cmp
   31 36; Cmp 32 33; Cmp 35 37; Cmp 34 35; Cmp 31 34; Cmp 30 31; Cmp 30 32; Cmp 29 30; Cmp 28 29;
   Cmp 31 33; Cmp 31 32; Cmp 30 31; Cmp 35 36; Cmp 34 35; Cmp 33 34; Rep [28; 32; 27; 34; 31; 33;
   26; 35; 25; 37; 29; 30; 36] [(25,26); (26,27); (27,28); (28,29); (29,30); (30,31); (31,32);
   (32,33); (33,34); (34,35); (35,36); (36,37)] [31; 34; 28; 36; 32; 29; 26; 37; 35; 33; 30; 27; 25]
   212; Cmp 4 6; Cmp 0 3; Cmp 1 4; Cmp 5 10; Cmp 5 7; Cmp 3 5; Cmp 1 3; Cmp 2 5; Cmp 2 3; Cmp 4 5;
   Cmp 9 11; Cmp 8 11; Cmp 6 8; Cmp 9 10; Cmp 6 9; Cmp 7 10; Cmp 6 7; Cmp 4 6; Cmp 3 4; Cmp 5 7; Cmp
   5 6; Cmp 8 10; Cmp 8 9; Cmp 7 8; Rep [4; 10; 3; 11; 1; 7; 0; 8; 2; 6; 5; 9] [(0,1); (1,2); (2,3);
   (3,4); (4,5); (5,6); (6,7); (7,8); (8,9); (9,10); (10,11)] [6; 9; 3; 10; 7; 4; 1; 11; 8; 5; 2; 0]
   225; Cmp 0 29; Cmp 4 33; Cmp 5 30; Cmp 6 31; Cmp 7 32; Cmp 12 25; Cmp 0 16; Cmp 0 12; Cmp 1 13;
   Cmp 2 14; Cmp 3 15; Cmp 4 38; Cmp 5 17; Cmp 6 18; Cmp 7 19; Cmp 8 24; Cmp 9 21; Cmp 10 22; Cmp 11
   23; Cmp 20 25; Cmp 4 20; Cmp 4 12; Cmp 26 39; Cmp 1 26; Cmp 1 4; Cmp 13 39; Cmp 13 26; Cmp 5 13;
   Cmp 27 40; Cmp 2 27; Cmp 14 40; Cmp 14 27; Cmp 6 14; Cmp 28 41; Cmp 3 28; Cmp 15 41; Cmp 15 28;
   Cmp 7 15; Cmp 29 42; Cmp 30 43; Cmp 17 30; Cmp 31 44; Cmp 18 31; Cmp 32 45; Cmp 19 32; Cmp 33 46;
   Cmp 33 38; Cmp 25 33; Cmp 20 25; Cmp 33 38; Cmp 34 47; Cmp 9 34; Cmp 9 39; Cmp 9 26; Cmp 9 13;
   Cmp 3 9; Cmp 17 26; Cmp 13 17; Cmp 7 13; Cmp 21 47; Cmp 21 34; Cmp 21 39; Cmp 21 30; Cmp 21 26;
   Cmp 34 43; Cmp 34 39; Cmp 30 34; Cmp 35 48; Cmp 10 35; Cmp 10 40; Cmp 10 27; Cmp 10 14; Cmp 18
   27; Cmp 14 18; Cmp 22 48; Cmp 22 35; Cmp 22 40; Cmp 22 31; Cmp 22 27; Cmp 35 44; Cmp 35 40; Cmp
   31 35; Cmp 36 49; Cmp 11 36; Cmp 11 41; Cmp 11 28; Cmp 11 15; Cmp 11 17; Cmp 19 28; Cmp 15 19;
   Cmp 15 21; Cmp 19 26; Cmp 23 49; Cmp 23 36; Cmp 23 41; Cmp 23 32; Cmp 23 28; Cmp 23 30; Cmp 28
   34; Cmp 36 45; Cmp 36 41; Cmp 32 36; Cmp 32 39; Cmp 32 34; Cmp 36 43; Cmp 37 50; Cmp 8 37; Cmp 8
   29; Cmp 16 29; Cmp 8 16; Cmp 8 20; Cmp 8 12; Cmp 2 8; Cmp 2 4; Cmp 3 8; Cmp 6 12; Cmp 5 6; Cmp 3
   5; Cmp 3 4; Cmp 6 8; Cmp 5 6; Cmp 9 12; Cmp 16 25; Cmp 16 20; Cmp 10 16; Cmp 7 10; Cmp 7 12; Cmp
   7 9; Cmp 7 8; Cmp 10 12; Cmp 13 16; Cmp 14 20; Cmp 11 14; Cmp 11 16; Cmp 11 13; Cmp 11 12; Cmp 14
   16; Cmp 15 20; Cmp 24 50; Cmp 24 37; Cmp 24 42; Cmp 24 29; Cmp 24 33; Cmp 24 25; Cmp 18 24; Cmp
   17 18; Cmp 15 17; Cmp 15 16; Cmp 18 20; Cmp 17 18; Cmp 21 24; Cmp 22 25; Cmp 19 22; Cmp 19 24;
   Cmp 19 21; Cmp 19 20; Cmp 22 24; Cmp 25 26; Cmp 29 38; Cmp 29 33; Cmp 27 29; Cmp 23 27; Cmp 23
   25; Cmp 23 24; Cmp 26 27; Cmp 25 26; Cmp 29 30; Cmp 31 33; Cmp 28 31; Cmp 28 29; Cmp 27 28; Cmp
   30 31; Cmp 29 30; Cmp 37 46; Cmp 37 42; Cmp 37 38; Cmp 35 37; Cmp 33 35; Cmp 32 33; Cmp 31 32;
   Cmp 34 35; Cmp 33 34; Cmp 37 39; Cmp 38 40; Cmp 36 38; Cmp 36 39; Cmp 36 37; Cmp 35 36; Cmp 38
   39; Cmp 41 47; Cmp 41 43; Cmp 42 45; Cmp 42 44; Cmp 40 42; Cmp 40 41; Cmp 39 40; Cmp 42 43; Cmp
   41 42; Cmp 46 48; Cmp 46 47; Cmp 44 46; Cmp 43 44; Cmp 45 47; Cmp 45 46; Cmp 49 50; Cmp 48 49;
   Cmp 47 48].
Lemma check51 : check 51%nat 1 swaps51 plan51 = true.
Proof. vm_cast_no_check (eq_refl true). Qed.
Lemma sorts51 : sorts01 51%nat (map pn swaps51).
Proof. eapply check_sound; [vm_compute; reflexivity|exact check51]. Qed.
