(** Certificates found by tools/plan_search.cpp, written by tools/gen_plans.py, checked by
    Proofs/NetCheck.v. *)
From Coq Require Import List NArith.
From Verif Require Import Proofs.NetLib Proofs.NetCheck Model.NetworkTables.
Import ListNotations.
Local Open Scope N_scope.

Definition plan53 : list op :=
  [Cmp 1 10; Cmp 15 22; Cmp 39 45; Cmp 28 35; Cmp 47 48; Cmp 13 25; Cmp 19 21; Cmp 40 50; Cmp 32 34;
   Cmp 5 11; Rep [5; 11] [(5,11)] [5; 11] 56; Cmp 42 49; Rep [39; 45] [(39,45)] [39; 45] 58; Rep
   [42; 49] [(42,49)] [42; 49] 60; Cmp 31 37; Rep [31; 37] [(31,37)] [31; 37] 62; Cmp 0 12; Cmp 29
   33; Rep [28; 35] [(28,35)] [28; 35] 64; Rep [29; 33] [(29,33)] [29; 33] 66; Cmp 43 44; Rep [43;
   44] [(43,44)] [43; 44] 68; Rep [47; 48] [(47,48)] [47; 48] 70; Cmp 6 8; Rep [1; 10] [(1,10)] [1;
   10] 72; Rep [6; 8] [(6,8)] [6; 8] 74; Cmp 2 9; Cmp 16 20; Rep [15; 22] [(15,22)] [15; 22] 76; Rep
   [16; 20] [(16,20)] [16; 20] 78; Cmp 41 51; Rep [40; 50] [(40,50)] [40; 50] 80; Rep [41; 51]
   [(41,51)] [41; 51] 82; Cmp 27 36; Rep [27; 36] [(27,36)] [27; 36] 84; Rep [32; 34] [(32,34)] [32;
   34] 86; Cmp 14 23; Rep [14; 23] [(14,23)] [14; 23] 88; Rep [19; 21] [(19,21)] [19; 21] 90; Cmp 18
   24; Rep [18; 24] [(18,24)] [18; 24] 92; Cmp 26 38; Cmp 46 52; Rep [46; 52] [(46,52)] [46; 52] 94;
   Cmp 3 7; Rep [2; 9] [(2,9)] [2; 9] 96; Rep [3; 7] [(3,7)] [3; 7] 98; Cmp 4 11; Rep [0; 12]
   [(0,12)] [0; 12] 100; Rep [4; 5; 11] [(4,11); (5,11)] [11; 4; 5] 102; Cmp 30 37; Rep [26; 38]
   [(26,38)] [26; 38] 105; Rep [30; 31; 37] [(30,37); (31,37)] [37; 30; 31] 107; Cmp 17 24; Rep [13;
   25] [(13,25)] [13; 25] 110; Rep [17; 18; 24] [(17,24); (18,24)] [24; 17; 18] 112; Cmp 20 22; Cmp
   15 16; Cmp 1 6; Cmp 8 10; Cmp 40 41; Cmp 50 51; Cmp 14 19; Cmp 21 23; Rep [14; 23; 19; 21]
   [(14,19); (14,21); (19,23); (21,23)] [19; 23; 14; 21] 115; Rep [16; 20; 15; 22] [(15,16);
   (15,20); (16,22); (20,22)] [16; 20; 22; 15] 119; Cmp 34 36; Cmp 27 32; Cmp 44 48; Cmp 43 47; Rep
   [43; 44; 47; 48] [(43,44); (43,47); (44,48); (47,48)] [44; 47; 43; 48] 123; Cmp 28 29; Cmp 33 35;
   Rep [32; 34; 27; 36] [(27,32); (27,34); (32,36); (34,36)] [32; 34; 36; 27] 127; Rep [28; 35; 29;
   33] [(28,29); (28,33); (29,35); (33,35)] [29; 35; 28; 33] 131; Cmp 45 49; Rep [40; 50; 41; 51]
   [(40,50); (40,41); (50,51); (41,51)] [50; 41; 40; 51] 135; Cmp 7 9; Cmp 2 3; Rep [1; 10; 6; 8]
   [(1,6); (1,8); (6,10); (8,10)] [6; 10; 1; 8] 139; Rep [3; 7; 2; 9] [(2,3); (2,7); (3,9); (7,9)]
   [3; 7; 9; 2] 143; Cmp 13 17; Cmp 24 25; Cmp 37 38; Cmp 26 30; Cmp 11 12; Cmp 0 4; Cmp 48 52; Cmp
   14 15; Cmp 16 19; Cmp 20 21; Cmp 22 23; Rep [13; 25; 17; 18; 24] [(13,17); (13,24); (18,25);
   (17,25); (24,25)] [17; 25; 13; 18; 24] 147; Rep [14; 23; 19; 21; 16; 20; 15; 22] [(14,16);
   (14,20); (14,15); (16,19); (16,22); (20,21); (20,22); (15,19); (15,21); (19,23); (21,23);
   (22,23)] [19; 21; 20; 23; 16; 22; 14; 15] 152; Cmp 33 34; Cmp 27 28; Cmp 29 32; Cmp 35 36; Rep
   [30; 31; 37; 26; 38] [(31,38); (26,30); (26,37); (30,38); (37,38)] [30; 38; 37; 31; 26] 160; Rep
   [28; 35; 29; 33; 32; 34; 27; 36] [(27,28); (27,29); (27,33); (28,32); (28,34); (29,35); (29,32);
   (33,35); (33,34); (35,36); (32,36); (34,36)] [28; 35; 29; 36; 27; 32; 33; 34] 165; Cmp 9 10; Cmp
   1 2; Cmp 3 6; Cmp 7 8; Rep [4; 5; 11; 0; 12] [(5,12); (0,4); (0,11); (4,12); (11,12)] [4; 12; 11;
   5; 0] 173; Rep [3; 7; 2; 9; 1; 10; 6; 8] [(1,3); (1,7); (1,2); (3,9); (3,6); (7,9); (7,8); (2,6);
   (2,8); (9,10); (6,10); (8,10)] [3; 8; 7; 10; 1; 9; 2; 6] 178; Cmp 49 51; Cmp 4 6; Cmp 4 7; Cmp 5
   9; Cmp 0 5; Cmp 0 1; Cmp 2 5; Cmp 2 4; Cmp 8 11; Cmp 3 8; Cmp 1 3; Cmp 1 2; Cmp 3 4; Cmp 2 3; Cmp
   6 11; Cmp 7 8; Cmp 10 12; Cmp 9 10; Cmp 6 9; Cmp 5 6; Cmp 5 7; Cmp 4 5; Cmp 3 4; Cmp 6 8; Cmp 6
   7; Cmp 5 6; Cmp 10 11; Cmp 9 10; Cmp 8 9; Cmp 23 25; Cmp 17 19; Cmp 17 20; Cmp 18 22; Cmp 13 18;
   Cmp 13 14; Cmp 15 18; Cmp 15 17; Cmp 21 24; Cmp 16 21; Cmp 14 16; Cmp 14 15; Cmp 16 17; Cmp 15
   16; Cmp 19 24; Cmp 20 21; Cmp 22 23; Cmp 19 22; Cmp 18 19; Cmp 18 20; Cmp 17 18; Cmp 16 17; Cmp
   19 21; Cmp 19 20; Cmp 18 19; Cmp 23 24; Cmp 22 23; Cmp 21 22; Rep [4; 5; 11; 0; 12; 3; 7; 2; 9;
   1; 10; 6; 8] [(0,1); (1,2); (2,3); (3,4); (4,5); (5,6); (6,7); (7,8); (8,9); (9,10); (10,11);
   (11,12)] [6; 9; 3; 11; 7; 4; 1; 12; 10; 8; 5; 2; 0] 186; Rep [14; 23; 19; 21; 16; 20; 15; 22; 13;
   25; 17; 18; 24] [(13,14); (14,15); (15,16); (16,17); (17,18); (18,19); (19,20); (20,21); (21,22);
   (22,23); (23,24); (24,25)] [19; 23; 16; 25; 21; 17; 14; 24; 22; 20; 18; 15; 13] 199; Cmp 10 23;
   Cmp 2 15; Cmp 3 16; Cmp 11 24; Cmp 30 32; Cmp 30 33; Cmp 31 35; Cmp 26 31; Cmp 26 27; Cmp 28 31;
   Cmp 28 30; Cmp 34 37; Cmp 29 34; Cmp 27 29; Cmp 27 28; Cmp 29 30; Cmp 28 29; Cmp 32 37; Cmp 33
   34; Cmp 36 38; Cmp 35 36; Cmp 32 35; Cmp 31 32; Cmp 31 33; Cmp 30 31; Cmp 29 30; Cmp 32 34; Cmp
   32 33; Cmp 31 32; Cmp 36 37; Cmp 35 36; Cmp 34 35; Rep [30; 31; 37; 26; 38; 28; 35; 29; 33; 32;
   34; 27; 36] [(26,27); (27,28); (28,29); (29,30); (30,31); (31,32); (32,33); (33,34); (34,35);
   (35,36); (36,37); (37,38)] [32; 35; 28; 37; 33; 30; 26; 38; 36; 34; 31; 29; 27] 212; Cmp 39 43;
   Cmp 41 48; Cmp 42 46; Cmp 40 42; Cmp 39 40; Cmp 43 50; Cmp 44 45; Cmp 41 44; Cmp 40 41; Cmp 45
   49; Cmp 45 48; Cmp 46 47; Cmp 42 46; Cmp 43 46; Cmp 42 43; Cmp 40 42; Cmp 41 43; Cmp 41 42; Cmp
   45 46; Cmp 44 45; Cmp 47 50; Cmp 46 47; Cmp 43 46; Cmp 43 44; Cmp 42 43; Cmp 48 49; Cmp 51 52;
   Cmp 50 51; Cmp 48 50; Cmp 45 48; Cmp 45 46; Cmp 44 45; Cmp 47 48; Cmp 46 47; Cmp 49 51; Cmp 49
   50; Rep [39; 45; 42; 49; 40; 50; 41; 51; 43; 44; 47; 48; 46; 52] [(39,40); (40,41); (41,42);
   (42,43); (43,44); (44,45); (45,46); (46,47); (47,49); (47,48); (49,50); (48,50); (50,51);
   (51,52)] [45; 50; 42; 51; 47; 43; 40; 52; 49; 46; 44; 41; 39; 48] 225; Cmp 48 49; Rep [39; 45;
   42; 49; 40; 50; 41; 51; 43; 44; 47; 48; 46; 52] [(39,40); (40,41); (41,42); (42,43); (43,44);
   (44,45); (45,46); (46,47); (47,48); (48,49); (49,50); (50,51); (51,52)] [45; 49; 42; 51; 47; 43;
   40; 52; 50; 48; 46; 44; 41; 39] 239; Cmp 28 41; Cmp 29 42; Cmp 36 49; Cmp 37 50; Cmp 25 38; Cmp 0
   26; Cmp 1 27; Cmp 2 28; Cmp 3 29; Cmp 4 43; Cmp 5 31; Cmp 5 44; Cmp 6 32; Cmp 7 33; Cmp 8 34; Cmp
   9 35; Cmp 10 36; Cmp 11 37; Cmp 12 51; Cmp 12 25; Cmp 13 39; Cmp 0 13; Cmp 14 40; Cmp 1 14; Cmp
   15 41; Cmp 10 41; Cmp 15 28; Cmp 10 28; Cmp 16 42; Cmp 11 42; Cmp 16 29; Cmp 11 29; Cmp 17 30;
   Cmp 4 17; Cmp 12 17; Cmp 18 31; Cmp 19 45; Cmp 6 19; Cmp 6 15; Cmp 10 15; Cmp 20 46; Cmp 7 20;
   Cmp 7 16; Cmp 11 16; Cmp 21 47; Cmp 8 21; Cmp 22 52; Cmp 9 22; Cmp 23 49; Cmp 23 36; Cmp 23 41;
   Cmp 24 50; Cmp 24 37; Cmp 24 42; Cmp 26 39; Cmp 13 26; Cmp 4 13; Cmp 1 4; Cmp 8 26; Cmp 8 13; Cmp
   2 8; Cmp 2 4; Cmp 27 40; Cmp 14 27; Cmp 30 43; Cmp 17 30; Cmp 17 26; Cmp 31 48; Cmp 9 31; Cmp 9
   27; Cmp 32 45; Cmp 19 32; Cmp 19 28; Cmp 15 19; Cmp 23 32; Cmp 23 28; Cmp 33 46; Cmp 20 33; Cmp
   20 29; Cmp 16 20; Cmp 24 33; Cmp 24 29; Cmp 34 47; Cmp 21 34; Cmp 21 39; Cmp 12 21; Cmp 12 17;
   Cmp 12 13; Cmp 6 12; Cmp 10 13; Cmp 10 12; Cmp 21 26; Cmp 17 21; Cmp 15 17; Cmp 19 21; Cmp 30 34;
   Cmp 35 52; Cmp 22 35; Cmp 35 48; Cmp 36 45; Cmp 36 41; Cmp 32 36; Cmp 37 46; Cmp 37 42; Cmp 33
   37; Cmp 38 51; Cmp 25 38; Cmp 25 43; Cmp 25 39; Cmp 25 30; Cmp 25 26; Cmp 23 25; Cmp 26 28; Cmp
   25 26; Cmp 34 39; Cmp 30 34; Cmp 30 32; Cmp 34 36; Cmp 38 47; Cmp 38 43; Cmp 38 39; Cmp 38 41;
   Cmp 39 45; Cmp 40 44; Cmp 18 40; Cmp 5 18; Cmp 5 14; Cmp 5 8; Cmp 9 14; Cmp 3 9; Cmp 3 6; Cmp 3
   8; Cmp 3 5; Cmp 3 4; Cmp 6 8; Cmp 22 44; Cmp 31 40; Cmp 27 31; Cmp 18 27; Cmp 14 18; Cmp 7 14;
   Cmp 7 9; Cmp 7 10; Cmp 7 8; Cmp 9 12; Cmp 9 10; Cmp 11 18; Cmp 11 15; Cmp 13 14; Cmp 11 13; Cmp
   11 12; Cmp 14 15; Cmp 13 14; Cmp 17 18; Cmp 22 31; Cmp 22 27; Cmp 16 22; Cmp 16 19; Cmp 16 17;
   Cmp 15 16; Cmp 18 19; Cmp 17 18; Cmp 20 27; Cmp 20 23; Cmp 21 22; Cmp 20 21; Cmp 19 20; Cmp 22
   23; Cmp 21 22; Cmp 35 44; Cmp 35 40; Cmp 31 35; Cmp 24 31; Cmp 24 27; Cmp 24 25; Cmp 23 24; Cmp
   26 27; Cmp 25 26; Cmp 28 31; Cmp 29 35; Cmp 29 30; Cmp 28 29; Cmp 27 28; Cmp 30 31; Cmp 29 30;
   Cmp 33 40; Cmp 32 33; Cmp 34 35; Cmp 32 34; Cmp 31 32; Cmp 33 35; Cmp 33 34; Cmp 37 44; Cmp 36
   37; Cmp 38 40; Cmp 36 38; Cmp 35 36; Cmp 37 40; Cmp 37 38; Cmp 41 44; Cmp 42 48; Cmp 39 42; Cmp
   39 44; Cmp 39 41; Cmp 39 40; Cmp 42 44; Cmp 43 49; Cmp 43 48; Cmp 47 52; Cmp 46 47; Cmp 45 46;
   Cmp 43 45; Cmp 43 44; Cmp 46 48; Cmp 45 46; Cmp 49 50; Cmp 47 49; Cmp 47 48; Cmp 50 52; Cmp 49
   50; Cmp 51 52].
Lemma check53 : check 53%nat 1 swaps53 plan53 = true.
Proof. vm_cast_no_check (eq_refl true). Qed.
Lemma sorts53 : sorts01 53%nat (map pn swaps53).
Proof. eapply check_sound; [vm_compute; reflexivity|exact check53]. Qed.

Definition plan54 : list op :=
  [Cmp 18 37; Cmp 20 30; Cmp 26 28; Cmp 43 44; Cmp 0 13; Cmp 45 49; Cmp 17 34; Cmp 47 48; Cmp 1 12;
   Cmp 41 52; Cmp 38 51; Rep [38; 51] [(38,51)] [38; 51] 57; Rep [43; 44] [(43,44)] [43; 44] 59; Cmp
   7 11; Rep [1; 12] [(1,12)] [1; 12] 61; Rep [7; 11] [(7,11)] [7; 11] 63; Cmp 39 50; Rep [39; 50]
   [(39,50)] [39; 50] 65; Rep [45; 49] [(45,49)] [45; 49] 67; Cmp 31 32; Rep [18; 37] [(18,37)] [18;
   37] 69; Rep [31; 32] [(31,32)] [31; 32] 71; Cmp 40 53; Rep [40; 53] [(40,53)] [40; 53] 73; Rep
   [47; 48] [(47,48)] [47; 48] 75; Cmp 19 36; Rep [19; 36] [(19,36)] [19; 36] 77; Rep [20; 30]
   [(20,30)] [20; 30] 79; Cmp 5 6; Rep [0; 13] [(0,13)] [0; 13] 81; Rep [5; 6] [(5,6)] [5; 6] 83;
   Cmp 9 10; Cmp 4 8; Cmp 25 27; Rep [25; 27] [(25,27)] [25; 27] 85; Rep [26; 28] [(26,28)] [26; 28]
   87; Cmp 42 46; Rep [41; 52] [(41,52)] [41; 52] 89; Rep [42; 46] [(42,46)] [42; 46] 91; Cmp 21 22;
   Cmp 3 14; Rep [3; 14] [(3,14)] [3; 14] 93; Rep [4; 8] [(4,8)] [4; 8] 95; Cmp 24 29; Cmp 49 50;
   Cmp 39 45; Cmp 23 33; Rep [17; 34] [(17,34)] [17; 34] 97; Rep [23; 33] [(23,33)] [23; 33] 99; Cmp
   30 36; Cmp 19 20; Cmp 16 35; Rep [16; 35] [(16,35)] [16; 35] 101; Rep [21; 22] [(21,22)] [21; 22]
   103; Cmp 2 15; Rep [2; 15] [(2,15)] [2; 15] 105; Rep [9; 10] [(9,10)] [9; 10] 107; Cmp 40 47; Cmp
   48 53; Rep [45; 49; 39; 50] [(39,45); (39,49); (45,50); (49,50)] [45; 49; 50; 39] 109; Rep [40;
   53; 47; 48] [(40,47); (40,48); (47,53); (48,53)] [47; 53; 40; 48] 113; Cmp 22 35; Cmp 16 21; Rep
   [20; 30; 19; 36] [(19,20); (19,30); (20,36); (30,36)] [20; 30; 36; 19] 117; Rep [21; 22; 16; 35]
   [(16,21); (16,22); (21,35); (22,35)] [21; 22; 35; 16] 121; Cmp 8 14; Cmp 3 4; Cmp 41 42; Cmp 46
   52; Rep [41; 52; 42; 46] [(41,42); (41,46); (42,52); (46,52)] [42; 52; 41; 46] 125; Cmp 10 15;
   Cmp 2 9; Rep [9; 10; 2; 15] [(2,9); (2,10); (9,15); (10,15)] [9; 10; 15; 2] 129; Rep [4; 8; 3;
   14] [(3,4); (3,8); (4,14); (8,14)] [4; 8; 14; 3] 133; Cmp 33 34; Cmp 17 23; Rep [23; 33; 17; 34]
   [(17,23); (17,33); (23,34); (33,34)] [23; 33; 34; 17] 137; Cmp 44 51; Cmp 38 43; Rep [43; 44; 38;
   51] [(38,43); (38,44); (43,51); (44,51)] [43; 44; 51; 38] 141; Cmp 1 7; Cmp 11 12; Rep [1; 12; 7;
   11] [(1,7); (1,11); (7,12); (11,12)] [7; 12; 1; 11] 145; Cmp 27 28; Cmp 25 26; Rep [24; 29]
   [(24,29)] [24; 29] 149; Rep [25; 27; 26; 28] [(25,27); (25,26); (27,28); (26,28)] [27; 26; 25;
   28] 151; Cmp 6 13; Cmp 0 5; Rep [5; 6; 0; 13] [(0,5); (0,6); (5,13); (6,13)] [5; 6; 13; 0] 155;
   Cmp 18 31; Cmp 32 37; Rep [18; 37; 31; 32] [(18,31); (18,32); (31,37); (32,37)] [31; 37; 18; 32]
   159; Cmp 24 27; Cmp 24 25; Cmp 26 29; Cmp 26 27; Cmp 25 26; Cmp 28 29; Cmp 27 28; Cmp 14 15; Cmp
   2 3; Cmp 32 33; Cmp 23 31; Cmp 52 53; Cmp 40 41; Cmp 0 1; Cmp 12 13; Cmp 22 30; Cmp 20 21; Cmp 50
   51; Cmp 38 39; Cmp 16 17; Cmp 18 19; Cmp 16 18; Cmp 17 19; Cmp 17 18; Cmp 20 32; Cmp 21 33; Cmp
   22 23; Cmp 20 22; Cmp 17 20; Cmp 18 22; Cmp 18 20; Cmp 21 23; Cmp 30 31; Cmp 30 32; Cmp 21 30;
   Cmp 23 32; Cmp 31 33; Cmp 34 35; Cmp 36 37; Cmp 34 36; Cmp 19 34; Cmp 19 22; Cmp 19 21; Cmp 19
   20; Cmp 22 30; Cmp 21 22; Cmp 35 37; Cmp 35 36; Cmp 31 35; Cmp 31 34; Cmp 23 31; Cmp 23 30; Cmp
   22 23; Cmp 32 34; Cmp 31 32; Cmp 30 31; Cmp 33 36; Cmp 33 35; Cmp 33 34; Rep [21; 22; 16; 35; 20;
   30; 19; 36; 18; 37; 31; 32; 23; 33; 17; 34] [(16,17); (17,18); (18,19); (19,20); (20,21);
   (21,22); (22,23); (23,30); (30,31); (31,32); (32,33); (33,34); (34,35); (35,36); (36,37)] [30;
   34; 20; 36; 32; 22; 18; 37; 35; 33; 31; 23; 21; 19; 16; 17] 163; Rep [24; 29; 25; 27; 26; 28]
   [(24,25); (25,26); (26,27); (27,28); (28,29)] [27; 29; 25; 28; 26; 24] 179; Cmp 29 37; Cmp 16 24;
   Cmp 18 26; Cmp 19 25; Cmp 27 35; Cmp 28 34; Cmp 13 15; Cmp 0 2; Cmp 1 3; Cmp 1 2; Cmp 4 5; Cmp 6
   8; Cmp 7 9; Cmp 6 7; Cmp 8 9; Cmp 10 11; Cmp 4 10; Cmp 4 6; Cmp 1 4; Cmp 2 6; Cmp 2 4; Cmp 5 11;
   Cmp 5 7; Cmp 8 10; Cmp 5 8; Cmp 7 10; Cmp 9 11; Cmp 12 14; Cmp 3 12; Cmp 3 6; Cmp 3 5; Cmp 3 4;
   Cmp 6 8; Cmp 5 6; Cmp 13 14; Cmp 9 13; Cmp 9 12; Cmp 7 9; Cmp 7 8; Cmp 6 7; Cmp 10 12; Cmp 9 10;
   Cmp 8 9; Cmp 11 14; Cmp 11 13; Cmp 11 12; Cmp 51 53; Cmp 38 40; Cmp 39 41; Cmp 39 40; Cmp 42 43;
   Cmp 44 46; Cmp 45 47; Cmp 44 45; Cmp 46 47; Cmp 48 49; Cmp 42 48; Cmp 42 44; Cmp 39 42; Cmp 40
   44; Cmp 40 42; Cmp 43 49; Cmp 43 45; Cmp 46 48; Cmp 43 46; Cmp 45 48; Cmp 47 49; Cmp 50 52; Cmp
   41 50; Cmp 41 44; Cmp 41 43; Cmp 41 42; Cmp 44 46; Cmp 43 44; Cmp 51 52; Cmp 47 51; Cmp 47 50;
   Cmp 45 47; Cmp 45 46; Cmp 44 45; Cmp 48 50; Cmp 47 48; Cmp 46 47; Cmp 49 52; Cmp 49 51; Cmp 49
   50; Rep [5; 6; 0; 13; 1; 12; 7; 11; 4; 8; 3; 14; 9; 10; 2; 15] [(0,1); (1,2); (2,3); (3,4);
   (4,5); (5,6); (6,7); (7,8); (8,9); (9,10); (10,11); (11,12); (12,13); (13,14); (14,15)] [7; 12;
   3; 14; 9; 5; 1; 15; 13; 11; 8; 6; 4; 2; 0; 10] 185; Rep [45; 49; 39; 50; 43; 44; 38; 51; 41; 52;
   42; 46; 40; 53; 47; 48] [(38,39); (39,40); (40,41); (41,42); (42,43); (43,44); (44,45); (45,46);
   (46,47); (47,48); (48,49); (49,50); (50,51); (51,52); (52,53)] [45; 49; 41; 51; 47; 43; 39; 52;
   50; 48; 46; 44; 42; 40; 38; 53] 201; Cmp 15 53; Cmp 0 38; Cmp 1 39; Cmp 2 40; Cmp 3 41; Cmp 4 42;
   Cmp 5 43; Cmp 6 44; Cmp 7 45; Cmp 8 46; Cmp 9 47; Cmp 10 48; Cmp 11 49; Cmp 12 50; Cmp 13 51; Cmp
   14 52; Rep [5; 6; 0; 13; 1; 12; 7; 11; 4; 8; 3; 14; 9; 10; 2; 15; 45; 49; 39; 50; 43; 44; 38; 51;
   41; 52; 42; 46; 40; 53; 47; 48] [(0,1); (0,38); (38,39); (1,2); (1,39); (2,3); (2,40); (39,40);
   (3,4); (3,41); (4,5); (4,42); (5,6); (5,43); (40,41); (6,7); (6,44); (7,8); (7,45); (41,42);
   (8,9); (8,46); (9,10); (9,47); (42,43); (10,11); (10,48); (11,12); (11,49); (43,44); (12,13);
   (12,50); (13,14); (13,51); (44,45); (14,15); (14,52); (45,46); (15,53); (46,47); (47,48);
   (48,49); (49,50); (50,51); (51,52); (52,53)] [10; 45; 6; 49; 41; 9; 5; 14; 13; 46; 8; 3; 51; 47;
   12; 43; 39; 2; 53; 15; 50; 4; 44; 42; 40; 38; 1; 52; 48; 11; 7; 0] 217; Cmp 0 16; Cmp 1 17; Cmp 2
   18; Cmp 3 19; Cmp 1 3; Cmp 4 20; Cmp 6 22; Cmp 10 32; Cmp 12 28; Cmp 4 12; Cmp 13 27; Cmp 13 39;
   Cmp 13 17; Cmp 3 13; Cmp 9 17; Cmp 15 29; Cmp 15 23; Cmp 7 15; Cmp 20 42; Cmp 12 20; Cmp 21 43;
   Cmp 21 39; Cmp 5 21; Cmp 5 13; Cmp 23 45; Cmp 15 23; Cmp 24 38; Cmp 16 24; Cmp 1 16; Cmp 2 24;
   Cmp 4 16; Cmp 2 4; Cmp 25 41; Cmp 19 25; Cmp 7 19; Cmp 26 40; Cmp 14 40; Cmp 14 32; Cmp 18 26;
   Cmp 6 18; Cmp 10 26; Cmp 10 18; Cmp 14 26; Cmp 30 38; Cmp 8 30; Cmp 8 24; Cmp 8 16; Cmp 3 8; Cmp
   3 4; Cmp 31 47; Cmp 17 31; Cmp 17 21; Cmp 9 17; Cmp 9 13; Cmp 7 9; Cmp 5 7; Cmp 32 48; Cmp 33 49;
   Cmp 11 33; Cmp 11 25; Cmp 11 19; Cmp 11 13; Cmp 9 11; Cmp 34 50; Cmp 28 34; Cmp 28 42; Cmp 20 28;
   Cmp 35 51; Cmp 27 35; Cmp 27 43; Cmp 27 39; Cmp 21 27; Cmp 19 21; Cmp 31 39; Cmp 35 47; Cmp 35
   43; Cmp 36 52; Cmp 36 40; Cmp 36 44; Cmp 22 36; Cmp 14 22; Cmp 32 36; Cmp 26 32; Cmp 36 44; Cmp
   37 53; Cmp 29 37; Cmp 29 51; Cmp 29 45; Cmp 23 29; Cmp 38 46; Cmp 30 38; Cmp 24 30; Cmp 12 24;
   Cmp 12 16; Cmp 6 12; Cmp 6 8; Cmp 5 8; Cmp 5 6; Cmp 10 16; Cmp 10 12; Cmp 7 10; Cmp 7 8; Cmp 9
   12; Cmp 9 10; Cmp 18 24; Cmp 20 30; Cmp 14 20; Cmp 14 18; Cmp 14 16; Cmp 11 14; Cmp 11 12; Cmp 20
   24; Cmp 18 20; Cmp 26 30; Cmp 28 38; Cmp 22 28; Cmp 22 26; Cmp 22 24; Cmp 28 30; Cmp 26 28; Cmp
   34 46; Cmp 34 42; Cmp 32 34; Cmp 36 38; Cmp 32 36; Cmp 30 32; Cmp 34 38; Cmp 34 36; Cmp 41 49;
   Cmp 33 41; Cmp 25 33; Cmp 15 25; Cmp 15 17; Cmp 15 19; Cmp 13 15; Cmp 13 16; Cmp 13 14; Cmp 15
   18; Cmp 15 16; Cmp 17 21; Cmp 17 19; Cmp 17 20; Cmp 17 18; Cmp 19 22; Cmp 19 20; Cmp 23 33; Cmp
   23 27; Cmp 25 31; Cmp 23 25; Cmp 21 23; Cmp 21 24; Cmp 21 22; Cmp 23 26; Cmp 23 24; Cmp 27 31;
   Cmp 25 27; Cmp 25 28; Cmp 25 26; Cmp 27 30; Cmp 27 28; Cmp 29 41; Cmp 29 35; Cmp 33 39; Cmp 29
   33; Cmp 29 31; Cmp 29 32; Cmp 29 30; Cmp 31 34; Cmp 31 32; Cmp 35 39; Cmp 33 35; Cmp 33 36; Cmp
   33 34; Cmp 50 52; Cmp 37 52; Cmp 37 49; Cmp 37 45; Cmp 37 41; Cmp 37 43; Cmp 37 39; Cmp 40 50;
   Cmp 40 48; Cmp 40 44; Cmp 40 42; Cmp 38 40; Cmp 35 38; Cmp 35 36; Cmp 37 40; Cmp 37 38; Cmp 41
   47; Cmp 41 43; Cmp 44 46; Cmp 42 44; Cmp 39 42; Cmp 39 40; Cmp 41 44; Cmp 41 42; Cmp 45 50; Cmp
   45 47; Cmp 46 48; Cmp 43 46; Cmp 43 44; Cmp 45 48; Cmp 45 46; Cmp 47 48; Cmp 49 51; Cmp 49 50].
Lemma check54 : check 54%nat 1 swaps54 plan54 = true.
Proof. vm_cast_no_check (eq_refl true). Qed.
Lemma sorts54 : sorts01 54%nat (map pn swaps54).
Proof. eapply check_sound; [vm_compute; reflexivity|exact check54]. Qed.

Definition plan55 : list op :=
  [Cmp 1 12; Cmp 2 13; Cmp 3 14; Cmp 4 8; Rep [3; 14] [(3,14)] [3; 14] 58; Rep [4; 8] [(4,8)] [4; 8]
   60; Cmp 5 6; Rep [5; 6] [(5,6)] [5; 6] 62; Cmp 7 11; Rep [1; 12] [(1,12)] [1; 12] 64; Rep [7; 11]
   [(7,11)] [7; 11] 66; Cmp 9 10; Rep [2; 13] [(2,13)] [2; 13] 68; Rep [9; 10] [(9,10)] [9; 10] 70;
   Cmp 15 18; Cmp 16 37; Cmp 17 36; Cmp 19 38; Cmp 20 32; Rep [19; 38] [(19,38)] [19; 38] 72; Rep
   [20; 32] [(20,32)] [20; 32] 74; Cmp 21 22; Rep [16; 37] [(16,37)] [16; 37] 76; Rep [21; 22]
   [(21,22)] [21; 22] 78; Cmp 23 35; Rep [17; 36] [(17,36)] [17; 36] 80; Rep [23; 35] [(23,35)] [23;
   35] 82; Cmp 24 26; Cmp 25 27; Cmp 28 30; Rep [24; 26] [(24,26)] [24; 26] 84; Rep [28; 30]
   [(28,30)] [28; 30] 86; Cmp 29 31; Rep [25; 27] [(25,27)] [25; 27] 88; Rep [29; 31] [(29,31)] [29;
   31] 90; Cmp 33 34; Rep [15; 18] [(15,18)] [15; 18] 92; Rep [33; 34] [(33,34)] [33; 34] 94; Cmp 39
   42; Cmp 40 53; Cmp 41 52; Cmp 43 54; Cmp 44 48; Rep [43; 54] [(43,54)] [43; 54] 96; Rep [44; 48]
   [(44,48)] [44; 48] 98; Cmp 45 46; Rep [40; 53] [(40,53)] [40; 53] 100; Rep [45; 46] [(45,46)]
   [45; 46] 102; Cmp 47 51; Rep [41; 52] [(41,52)] [41; 52] 104; Rep [47; 51] [(47,51)] [47; 51]
   106; Cmp 49 50; Rep [39; 42] [(39,42)] [39; 42] 108; Rep [49; 50] [(49,50)] [49; 50] 110; Cmp 0
   5; Cmp 1 7; Cmp 11 12; Rep [0; 5; 6] [(0,5); (0,6)] [0; 5; 6] 112; Rep [1; 12; 7; 11] [(1,7);
   (1,11); (7,12); (11,12)] [7; 12; 1; 11] 115; Cmp 2 9; Cmp 10 13; Rep [2; 13; 9; 10] [(2,9);
   (2,10); (9,13); (10,13)] [9; 13; 2; 10] 119; Cmp 3 4; Cmp 8 14; Rep [3; 14; 4; 8] [(3,4); (3,8);
   (4,14); (8,14)] [4; 14; 3; 8] 123; Cmp 15 33; Cmp 18 34; Cmp 16 21; Cmp 22 37; Cmp 17 23; Cmp 35
   36; Rep [16; 37; 21; 22] [(16,21); (16,22); (21,37); (22,37)] [21; 37; 16; 22] 127; Rep [17; 36;
   23; 35] [(17,23); (17,35); (23,36); (35,36)] [23; 36; 17; 35] 131; Rep [15; 18; 33; 34] [(15,18);
   (15,33); (18,34); (33,34)] [18; 33; 15; 34] 135; Cmp 19 20; Cmp 32 38; Rep [19; 38; 20; 32]
   [(19,20); (19,32); (20,38); (32,38)] [20; 38; 19; 32] 139; Cmp 24 28; Cmp 26 30; Cmp 25 29; Cmp
   27 31; Rep [24; 26; 28; 30] [(24,26); (24,28); (26,30); (28,30)] [26; 28; 24; 30] 143; Rep [25;
   27; 29; 31] [(25,27); (25,29); (27,31); (29,31)] [27; 29; 25; 31] 147; Cmp 39 49; Cmp 42 50; Cmp
   40 45; Cmp 46 53; Cmp 41 47; Cmp 51 52; Rep [40; 53; 45; 46] [(40,45); (40,46); (45,53); (46,53)]
   [45; 53; 40; 46] 151; Rep [41; 52; 47; 51] [(41,47); (41,51); (47,52); (51,52)] [47; 52; 41; 51]
   155; Rep [39; 42; 49; 50] [(39,42); (39,49); (42,50); (49,50)] [42; 49; 39; 50] 159; Cmp 43 44;
   Cmp 48 54; Rep [43; 54; 44; 48] [(43,44); (43,48); (44,54); (48,54)] [44; 54; 43; 48] 163; Cmp 0
   1; Cmp 2 3; Cmp 13 14; Cmp 15 19; Cmp 34 38; Cmp 16 17; Cmp 36 37; Cmp 24 25; Cmp 26 27; Cmp 28
   29; Cmp 26 28; Cmp 25 28; Cmp 25 26; Cmp 27 29; Cmp 30 31; Cmp 27 30; Cmp 27 28; Cmp 29 30; Cmp
   39 43; Cmp 50 54; Cmp 40 41; Cmp 52 53; Cmp 0 2; Cmp 1 3; Cmp 1 2; Cmp 4 5; Cmp 6 8; Cmp 7 9; Cmp
   6 7; Cmp 8 9; Cmp 10 11; Cmp 4 10; Cmp 4 6; Cmp 1 4; Cmp 2 6; Cmp 2 4; Cmp 5 11; Cmp 5 7; Cmp 8
   10; Cmp 5 8; Cmp 7 10; Cmp 9 11; Cmp 12 13; Cmp 3 12; Cmp 3 6; Cmp 3 5; Cmp 3 4; Cmp 6 8; Cmp 5
   6; Cmp 13 14; Cmp 9 13; Cmp 9 12; Cmp 7 9; Cmp 7 8; Cmp 6 7; Cmp 10 12; Cmp 9 10; Cmp 8 9; Cmp 11
   14; Cmp 11 13; Cmp 11 12; Rep [0; 5; 6; 1; 12; 7; 11; 2; 13; 9; 10; 3; 14; 4; 8] [(0,1); (1,2);
   (2,3); (3,4); (4,5); (5,6); (6,7); (7,8); (8,9); (9,10); (10,11); (11,12); (12,13); (13,14)] [7;
   11; 3; 13; 9; 5; 1; 14; 12; 10; 8; 6; 4; 2; 0] 167; Rep [24; 26; 28; 30; 25; 27; 29; 31]
   [(24,25); (25,26); (26,27); (27,28); (28,29); (29,30); (30,31)] [28; 30; 26; 31; 29; 27; 24; 25]
   182; Cmp 0 24; Cmp 2 26; Cmp 3 27; Cmp 14 30; Cmp 15 16; Cmp 17 19; Cmp 16 17; Cmp 18 35; Cmp 20
   21; Cmp 18 20; Cmp 21 35; Cmp 22 32; Cmp 23 33; Cmp 22 23; Cmp 18 22; Cmp 16 18; Cmp 17 22; Cmp
   17 18; Cmp 21 23; Cmp 32 33; Cmp 20 32; Cmp 20 21; Cmp 23 32; Cmp 33 35; Cmp 34 36; Cmp 19 34;
   Cmp 19 22; Cmp 19 20; Cmp 18 19; Cmp 21 22; Cmp 20 21; Cmp 37 38; Cmp 36 37; Cmp 33 36; Cmp 33
   34; Cmp 23 33; Cmp 22 23; Cmp 21 22; Cmp 32 34; Cmp 32 33; Cmp 23 32; Cmp 35 37; Cmp 35 36; Rep
   [15; 18; 33; 34; 19; 38; 20; 32; 16; 37; 21; 22; 17; 36; 23; 35] [(15,16); (16,17); (17,18);
   (18,19); (19,20); (20,21); (21,22); (22,23); (23,32); (32,33); (33,34); (33,35); (34,36);
   (35,36); (36,37); (37,38)] [22; 34; 18; 37; 33; 20; 16; 38; 36; 35; 32; 21; 19; 17; 15; 23] 190;
   Cmp 34 35; Rep [15; 18; 33; 34; 19; 38; 20; 32; 16; 37; 21; 22; 17; 36; 23; 35] [(15,16);
   (16,17); (17,18); (18,19); (19,20); (20,21); (21,22); (22,23); (23,32); (32,33); (33,34);
   (34,35); (35,36); (36,37); (37,38)] [22; 34; 18; 37; 32; 20; 16; 38; 36; 33; 23; 21; 19; 17; 15;
   35] 206; Cmp 39 40; Cmp 41 43; Cmp 40 41; Cmp 42 51; Cmp 44 45; Cmp 42 44; Cmp 45 51; Cmp 46 48;
   Cmp 47 49; Cmp 46 47; Cmp 42 46; Cmp 40 42; Cmp 41 46; Cmp 41 42; Cmp 45 47; Cmp 48 49; Cmp 44
   48; Cmp 44 45; Cmp 47 48; Cmp 49 51; Cmp 50 52; Cmp 43 50; Cmp 43 46; Cmp 43 44; Cmp 42 43; Cmp
   45 46; Cmp 44 45; Cmp 53 54; Cmp 52 53; Cmp 49 52; Cmp 49 50; Cmp 47 49; Cmp 46 47; Cmp 45 46;
   Cmp 48 50; Cmp 48 49; Cmp 47 48; Cmp 51 53; Cmp 51 52; Rep [39; 42; 49; 50; 43; 54; 44; 48; 40;
   53; 45; 46; 41; 52; 47; 51] [(39,40); (40,41); (41,42); (42,43); (43,44); (44,45); (45,46);
   (46,47); (47,48); (48,49); (49,50); (49,51); (50,52); (51,52); (52,53); (53,54)] [46; 50; 42; 53;
   49; 44; 40; 54; 52; 51; 48; 45; 43; 41; 39; 47] 222; Cmp 50 51; Rep [39; 42; 49; 50; 43; 54; 44;
   48; 40; 53; 45; 46; 41; 52; 47; 51] [(39,40); (40,41); (41,42); (42,43); (43,44); (44,45);
   (45,46); (46,47); (47,48); (48,49); (49,50); (50,51); (51,52); (52,53); (53,54)] [46; 50; 42; 53;
   48; 44; 40; 54; 52; 49; 47; 45; 43; 41; 39; 51] 238; Cmp 15 39; Cmp 17 41; Cmp 18 42; Cmp 22 46;
   Cmp 32 48; Cmp 37 53; Cmp 0 15; Cmp 1 16; Cmp 2 17; Cmp 3 18; Cmp 4 43; Cmp 4 19; Cmp 5 44; Cmp 5
   20; Cmp 6 21; Cmp 8 23; Cmp 10 49; Cmp 11 50; Cmp 12 35; Cmp 13 36; Cmp 14 37; Cmp 14 45; Cmp 6
   14; Cmp 19 43; Cmp 20 44; Cmp 21 45; Cmp 24 39; Cmp 15 24; Cmp 2 15; Cmp 25 40; Cmp 1 25; Cmp 16
   40; Cmp 9 40; Cmp 9 32; Cmp 16 25; Cmp 9 16; Cmp 3 9; Cmp 26 41; Cmp 17 26; Cmp 6 17; Cmp 27 42;
   Cmp 18 27; Cmp 28 51; Cmp 12 28; Cmp 12 24; Cmp 4 12; Cmp 1 4; Cmp 1 2; Cmp 19 24; Cmp 12 19; Cmp
   29 52; Cmp 13 29; Cmp 13 25; Cmp 5 13; Cmp 5 9; Cmp 20 25; Cmp 16 20; Cmp 13 20; Cmp 13 16; Cmp
   30 53; Cmp 30 37; Cmp 30 41; Cmp 31 54; Cmp 31 38; Cmp 7 31; Cmp 7 22; Cmp 7 18; Cmp 7 13; Cmp 31
   46; Cmp 22 31; Cmp 33 49; Cmp 10 33; Cmp 10 26; Cmp 10 17; Cmp 21 26; Cmp 30 33; Cmp 14 30; Cmp
   14 21; Cmp 26 30; Cmp 21 26; Cmp 34 50; Cmp 11 34; Cmp 11 27; Cmp 11 18; Cmp 11 16; Cmp 35 51;
   Cmp 28 35; Cmp 28 43; Cmp 24 28; Cmp 36 52; Cmp 29 36; Cmp 29 44; Cmp 29 32; Cmp 37 45; Cmp 33
   37; Cmp 38 54; Cmp 38 42; Cmp 34 38; Cmp 27 34; Cmp 22 27; Cmp 20 22; Cmp 31 34; Cmp 27 31; Cmp
   39 47; Cmp 8 39; Cmp 8 15; Cmp 4 8; Cmp 3 4; Cmp 4 8; Cmp 5 8; Cmp 15 19; Cmp 12 15; Cmp 6 12;
   Cmp 6 8; Cmp 5 6; Cmp 9 12; Cmp 10 15; Cmp 7 10; Cmp 7 9; Cmp 7 8; Cmp 10 12; Cmp 9 10; Cmp 13
   15; Cmp 17 19; Cmp 23 47; Cmp 23 39; Cmp 23 24; Cmp 14 23; Cmp 14 17; Cmp 11 14; Cmp 11 13; Cmp
   11 12; Cmp 14 15; Cmp 13 14; Cmp 16 17; Cmp 19 23; Cmp 28 39; Cmp 24 28; Cmp 21 24; Cmp 26 28;
   Cmp 35 47; Cmp 35 43; Cmp 30 35; Cmp 40 48; Cmp 25 40; Cmp 25 29; Cmp 18 25; Cmp 18 20; Cmp 18
   19; Cmp 16 18; Cmp 15 16; Cmp 17 19; Cmp 17 18; Cmp 20 21; Cmp 22 25; Cmp 22 23; Cmp 20 22; Cmp
   19 20; Cmp 21 23; Cmp 21 22; Cmp 24 25; Cmp 32 40; Cmp 29 32; Cmp 27 29; Cmp 26 27; Cmp 24 26;
   Cmp 23 24; Cmp 25 27; Cmp 25 26; Cmp 28 29; Cmp 31 32; Cmp 34 40; Cmp 36 48; Cmp 36 44; Cmp 41
   49; Cmp 33 41; Cmp 33 39; Cmp 30 33; Cmp 30 31; Cmp 28 30; Cmp 27 28; Cmp 29 31; Cmp 29 30; Cmp
   35 39; Cmp 32 35; Cmp 37 41; Cmp 37 43; Cmp 41 47; Cmp 42 50; Cmp 38 42; Cmp 45 51; Cmp 45 49;
   Cmp 50 53; Cmp 52 54; Cmp 46 52; Cmp 38 46; Cmp 36 38; Cmp 34 36; Cmp 33 34; Cmp 32 33; Cmp 31
   32; Cmp 34 35; Cmp 33 34; Cmp 36 39; Cmp 38 40; Cmp 37 38; Cmp 36 37; Cmp 35 36; Cmp 38 39; Cmp
   37 38; Cmp 40 43; Cmp 42 46; Cmp 42 44; Cmp 41 42; Cmp 40 41; Cmp 39 40; Cmp 42 43; Cmp 41 42;
   Cmp 44 47; Cmp 46 48; Cmp 45 46; Cmp 44 45; Cmp 43 44; Cmp 46 47; Cmp 45 46; Cmp 50 52; Cmp 51
   52; Cmp 50 51; Cmp 49 50; Cmp 48 49; Cmp 47 48; Cmp 49 50; Cmp 53 54].
Lemma check55 : check 55%nat 1 swaps55 plan55 = true.
Proof. vm_cast_no_check (eq_refl true). Qed.
Lemma sorts55 : sorts01 55%nat (map pn swaps55).
Proof. eapply check_sound; [vm_compute; reflexivity|exact check55]. Qed.

Definition plan56 : list op :=
  [Cmp 0 13; Cmp 1 12; Cmp 2 15; Cmp 3 14; Cmp 4 8; Rep [3; 14] [(3,14)] [3; 14] 59; Rep [4; 8]
   [(4,8)] [4; 8] 61; Cmp 5 6; Rep [0; 13] [(0,13)] [0; 13] 63; Rep [5; 6] [(5,6)] [5; 6] 65; Cmp 7
   11; Rep [1; 12] [(1,12)] [1; 12] 67; Rep [7; 11] [(7,11)] [7; 11] 69; Cmp 9 10; Rep [2; 15]
   [(2,15)] [2; 15] 71; Rep [9; 10] [(9,10)] [9; 10] 73; Cmp 16 37; Cmp 17 36; Cmp 18 39; Cmp 19 38;
   Cmp 20 32; Rep [19; 38] [(19,38)] [19; 38] 75; Rep [20; 32] [(20,32)] [20; 32] 77; Cmp 21 22; Rep
   [16; 37] [(16,37)] [16; 37] 79; Rep [21; 22] [(21,22)] [21; 22] 81; Cmp 23 35; Rep [17; 36]
   [(17,36)] [17; 36] 83; Rep [23; 35] [(23,35)] [23; 35] 85; Cmp 24 26; Cmp 25 27; Cmp 28 30; Rep
   [24; 26] [(24,26)] [24; 26] 87; Rep [28; 30] [(28,30)] [28; 30] 89; Cmp 29 31; Rep [25; 27]
   [(25,27)] [25; 27] 91; Rep [29; 31] [(29,31)] [29; 31] 93; Cmp 33 34; Rep [18; 39] [(18,39)] [18;
   39] 95; Rep [33; 34] [(33,34)] [33; 34] 97; Cmp 40 53; Cmp 41 52; Cmp 42 55; Cmp 43 54; Cmp 44
   48; Rep [43; 54] [(43,54)] [43; 54] 99; Rep [44; 48] [(44,48)] [44; 48] 101; Cmp 45 46; Rep [40;
   53] [(40,53)] [40; 53] 103; Rep [45; 46] [(45,46)] [45; 46] 105; Cmp 47 51; Rep [41; 52]
   [(41,52)] [41; 52] 107; Rep [47; 51] [(47,51)] [47; 51] 109; Cmp 49 50; Rep [42; 55] [(42,55)]
   [42; 55] 111; Rep [49; 50] [(49,50)] [49; 50] 113; Cmp 0 5; Cmp 6 13; Cmp 1 7; Cmp 11 12; Rep [0;
   13; 5; 6] [(0,5); (0,6); (5,13); (6,13)] [5; 13; 0; 6] 115; Rep [1; 12; 7; 11] [(1,7); (1,11);
   (7,12); (11,12)] [7; 12; 1; 11] 119; Cmp 2 9; Cmp 10 15; Rep [2; 15; 9; 10] [(2,9); (2,10);
   (9,15); (10,15)] [9; 15; 2; 10] 123; Cmp 3 4; Cmp 8 14; Rep [3; 14; 4; 8] [(3,4); (3,8); (4,14);
   (8,14)] [4; 14; 3; 8] 127; Cmp 16 21; Cmp 22 37; Cmp 17 23; Cmp 35 36; Rep [16; 37; 21; 22]
   [(16,21); (16,22); (21,37); (22,37)] [21; 37; 16; 22] 131; Rep [17; 36; 23; 35] [(17,23);
   (17,35); (23,36); (35,36)] [23; 36; 17; 35] 135; Cmp 18 33; Cmp 34 39; Rep [18; 39; 33; 34]
   [(18,33); (18,34); (33,39); (34,39)] [33; 39; 18; 34] 139; Cmp 19 20; Cmp 32 38; Rep [19; 38; 20;
   32] [(19,20); (19,32); (20,38); (32,38)] [20; 38; 19; 32] 143; Cmp 24 28; Cmp 26 30; Cmp 25 29;
   Cmp 27 31; Rep [24; 26; 28; 30] [(24,26); (24,28); (26,30); (28,30)] [26; 28; 24; 30] 147; Rep
   [25; 27; 29; 31] [(25,27); (25,29); (27,31); (29,31)] [27; 29; 25; 31] 151; Cmp 40 45; Cmp 46 53;
   Cmp 41 47; Cmp 51 52; Rep [40; 53; 45; 46] [(40,45); (40,46); (45,53); (46,53)] [45; 53; 40; 46]
   155; Rep [41; 52; 47; 51] [(41,47); (41,51); (47,52); (51,52)] [47; 52; 41; 51] 159; Cmp 42 49;
   Cmp 50 55; Rep [42; 55; 49; 50] [(42,49); (42,50); (49,55); (50,55)] [49; 55; 42; 50] 163; Cmp 43
   44; Cmp 48 54; Rep [43; 54; 44; 48] [(43,44); (43,48); (44,54); (48,54)] [44; 54; 43; 48] 167;
   Cmp 0 1; Cmp 12 13; Cmp 2 3; Cmp 14 15; Cmp 16 17; Cmp 36 37; Cmp 18 19; Cmp 38 39; Cmp 24 25;
   Cmp 26 27; Cmp 28 29; Cmp 26 28; Cmp 25 28; Cmp 25 26; Cmp 27 29; Cmp 30 31; Cmp 27 30; Cmp 27
   28; Cmp 29 30; Cmp 40 41; Cmp 52 53; Cmp 42 43; Cmp 54 55; Cmp 0 2; Cmp 1 3; Cmp 1 2; Cmp 4 5;
   Cmp 6 8; Cmp 7 9; Cmp 6 7; Cmp 8 9; Cmp 10 11; Cmp 4 10; Cmp 4 6; Cmp 1 4; Cmp 2 6; Cmp 2 4; Cmp
   5 11; Cmp 5 7; Cmp 8 10; Cmp 5 8; Cmp 7 10; Cmp 9 11; Cmp 12 14; Cmp 3 12; Cmp 3 6; Cmp 3 5; Cmp
   3 4; Cmp 6 8; Cmp 5 6; Cmp 13 15; Cmp 13 14; Cmp 9 13; Cmp 9 12; Cmp 7 9; Cmp 7 8; Cmp 6 7; Cmp
   10 12; Cmp 9 10; Cmp 8 9; Cmp 11 14; Cmp 11 13; Cmp 11 12; Rep [0; 13; 5; 6; 1; 12; 7; 11; 2; 15;
   9; 10; 3; 14; 4; 8] [(0,1); (1,2); (2,3); (3,4); (4,5); (5,6); (6,7); (7,8); (8,9); (9,10);
   (10,11); (11,12); (12,13); (13,14); (14,15)] [7; 12; 3; 14; 9; 5; 1; 15; 13; 11; 8; 6; 4; 2; 0;
   10] 171; Rep [24; 26; 28; 30; 25; 27; 29; 31] [(24,25); (25,26); (26,27); (27,28); (28,29);
   (29,30); (30,31)] [28; 30; 26; 31; 29; 27; 24; 25] 187; Cmp 0 24; Cmp 2 26; Cmp 3 27; Cmp 14 30;
   Cmp 16 18; Cmp 17 19; Cmp 17 18; Cmp 20 21; Cmp 22 32; Cmp 23 33; Cmp 22 23; Cmp 32 33; Cmp 34
   35; Cmp 20 34; Cmp 20 22; Cmp 17 20; Cmp 18 22; Cmp 18 20; Cmp 21 35; Cmp 21 23; Cmp 32 34; Cmp
   21 32; Cmp 23 34; Cmp 33 35; Cmp 36 38; Cmp 19 36; Cmp 19 22; Cmp 19 21; Cmp 19 20; Cmp 22 32;
   Cmp 21 22; Cmp 37 39; Cmp 37 38; Cmp 33 37; Cmp 33 36; Cmp 23 33; Cmp 23 32; Cmp 22 23; Cmp 34
   36; Cmp 33 34; Cmp 32 33; Cmp 35 38; Cmp 35 37; Cmp 35 36; Rep [16; 37; 21; 22; 17; 36; 23; 35;
   18; 39; 33; 34; 19; 38; 20; 32] [(16,17); (17,18); (18,19); (19,20); (20,21); (21,22); (22,23);
   (23,32); (32,33); (33,34); (34,35); (35,36); (36,37); (37,38); (38,39)] [23; 36; 19; 38; 33; 21;
   17; 39; 37; 35; 32; 22; 20; 18; 16; 34] 195; Cmp 40 42; Cmp 41 43; Cmp 41 42; Cmp 44 45; Cmp 46
   48; Cmp 47 49; Cmp 46 47; Cmp 48 49; Cmp 50 51; Cmp 44 50; Cmp 44 46; Cmp 41 44; Cmp 42 46; Cmp
   42 44; Cmp 45 51; Cmp 45 47; Cmp 48 50; Cmp 45 48; Cmp 47 50; Cmp 49 51; Cmp 52 54; Cmp 43 52;
   Cmp 43 46; Cmp 43 45; Cmp 43 44; Cmp 46 48; Cmp 45 46; Cmp 53 55; Cmp 53 54; Cmp 49 53; Cmp 49
   52; Cmp 47 49; Cmp 47 48; Cmp 46 47; Cmp 50 52; Cmp 49 50; Cmp 48 49; Cmp 51 54; Cmp 51 53; Cmp
   51 52; Rep [40; 53; 45; 46; 41; 52; 47; 51; 42; 55; 49; 50; 43; 54; 44; 48] [(40,41); (41,42);
   (42,43); (43,44); (44,45); (45,46); (46,47); (47,48); (48,49); (49,50); (50,51); (51,52);
   (52,53); (53,54); (54,55)] [47; 52; 43; 54; 49; 45; 41; 55; 53; 51; 48; 46; 44; 42; 40; 50] 211;
   Cmp 16 40; Cmp 18 42; Cmp 19 43; Cmp 23 47; Cmp 33 49; Cmp 38 54; Cmp 0 16; Cmp 1 17; Cmp 2 18;
   Cmp 3 19; Cmp 4 44; Cmp 4 20; Cmp 5 45; Cmp 5 21; Cmp 6 22; Cmp 8 32; Cmp 10 50; Cmp 11 51; Cmp
   12 36; Cmp 13 37; Cmp 14 38; Cmp 14 46; Cmp 6 14; Cmp 15 39; Cmp 20 44; Cmp 21 45; Cmp 22 46; Cmp
   24 40; Cmp 16 24; Cmp 2 16; Cmp 25 41; Cmp 1 25; Cmp 17 41; Cmp 9 41; Cmp 9 33; Cmp 17 25; Cmp 9
   17; Cmp 3 9; Cmp 26 42; Cmp 18 26; Cmp 6 18; Cmp 27 43; Cmp 19 27; Cmp 28 52; Cmp 12 28; Cmp 12
   24; Cmp 4 12; Cmp 1 4; Cmp 1 2; Cmp 20 24; Cmp 12 20; Cmp 29 53; Cmp 13 29; Cmp 13 25; Cmp 5 13;
   Cmp 5 9; Cmp 21 25; Cmp 17 21; Cmp 13 21; Cmp 13 17; Cmp 30 54; Cmp 30 38; Cmp 30 42; Cmp 31 55;
   Cmp 15 31; Cmp 7 15; Cmp 7 23; Cmp 7 19; Cmp 7 13; Cmp 15 47; Cmp 15 23; Cmp 34 50; Cmp 10 34;
   Cmp 10 26; Cmp 10 18; Cmp 22 26; Cmp 30 34; Cmp 14 30; Cmp 14 22; Cmp 26 30; Cmp 22 26; Cmp 35
   51; Cmp 11 35; Cmp 11 27; Cmp 11 19; Cmp 11 17; Cmp 36 52; Cmp 28 36; Cmp 28 44; Cmp 24 28; Cmp
   37 53; Cmp 29 37; Cmp 29 45; Cmp 29 33; Cmp 38 46; Cmp 34 38; Cmp 39 55; Cmp 31 39; Cmp 31 43;
   Cmp 31 35; Cmp 27 31; Cmp 15 27; Cmp 15 21; Cmp 23 31; Cmp 23 27; Cmp 39 53; Cmp 39 47; Cmp 40
   48; Cmp 8 40; Cmp 8 16; Cmp 4 8; Cmp 3 4; Cmp 4 8; Cmp 5 8; Cmp 16 20; Cmp 12 16; Cmp 6 12; Cmp 6
   8; Cmp 5 6; Cmp 9 12; Cmp 10 16; Cmp 7 10; Cmp 7 9; Cmp 7 8; Cmp 10 12; Cmp 9 10; Cmp 13 16; Cmp
   18 20; Cmp 32 48; Cmp 32 40; Cmp 24 32; Cmp 14 24; Cmp 14 18; Cmp 11 14; Cmp 11 13; Cmp 11 12;
   Cmp 14 16; Cmp 13 14; Cmp 17 18; Cmp 20 24; Cmp 28 40; Cmp 28 32; Cmp 22 28; Cmp 26 32; Cmp 36
   48; Cmp 36 44; Cmp 30 36; Cmp 41 49; Cmp 25 41; Cmp 25 29; Cmp 19 25; Cmp 15 19; Cmp 15 20; Cmp
   15 17; Cmp 15 16; Cmp 18 20; Cmp 17 18; Cmp 19 22; Cmp 21 25; Cmp 21 24; Cmp 19 21; Cmp 19 20;
   Cmp 22 24; Cmp 21 22; Cmp 25 28; Cmp 33 41; Cmp 29 33; Cmp 23 29; Cmp 23 26; Cmp 23 25; Cmp 23
   24; Cmp 26 28; Cmp 25 26; Cmp 27 33; Cmp 29 32; Cmp 31 41; Cmp 37 49; Cmp 37 45; Cmp 42 50; Cmp
   34 42; Cmp 34 40; Cmp 30 34; Cmp 27 30; Cmp 27 29; Cmp 27 28; Cmp 30 32; Cmp 29 30; Cmp 36 40;
   Cmp 33 36; Cmp 38 42; Cmp 38 44; Cmp 42 48; Cmp 43 51; Cmp 35 43; Cmp 35 39; Cmp 35 37; Cmp 31
   35; Cmp 31 34; Cmp 31 33; Cmp 31 32; Cmp 34 36; Cmp 33 34; Cmp 35 40; Cmp 37 41; Cmp 37 38; Cmp
   35 37; Cmp 35 36; Cmp 38 40; Cmp 37 38; Cmp 39 43; Cmp 39 45; Cmp 39 42; Cmp 41 44; Cmp 39 41;
   Cmp 39 40; Cmp 42 44; Cmp 41 42; Cmp 43 49; Cmp 45 48; Cmp 46 52; Cmp 46 50; Cmp 43 46; Cmp 43
   45; Cmp 43 44; Cmp 46 48; Cmp 45 46; Cmp 51 54; Cmp 47 51; Cmp 51 52; Cmp 47 51; Cmp 47 50; Cmp
   47 49; Cmp 47 48; Cmp 49 50; Cmp 53 54].
Lemma check56 : check 56%nat 1 swaps56 plan56 = true.
Proof. vm_cast_no_check (eq_refl true). Qed.
Lemma sorts56 : sorts01 56%nat (map pn swaps56).
Proof. eapply check_sound; [vm_compute; reflexivity|exact check56]. Qed.

Definition plan57 : list op :=
  [Cmp 0 8; Cmp 1 7; Rep [0; 8] [(0,8)] [0; 8] 60; Rep [1; 7] [(1,7)] [1; 7] 62; Cmp 2 6; Cmp 3 11;
   Cmp 4 10; Rep [3; 11] [(3,11)] [3; 11] 64; Rep [4; 10] [(4,10)] [4; 10] 66; Cmp 5 9; Rep [2; 6]
   [(2,6)] [2; 6] 68; Rep [5; 9] [(5,9)] [5; 9] 70; Cmp 12 24; Cmp 13 22; Cmp 14 21; Cmp 15 19; Rep
   [14; 21] [(14,21)] [14; 21] 72; Rep [15; 19] [(15,19)] [15; 19] 74; Cmp 17 23; Rep [17; 23]
   [(17,23)] [17; 23] 76; Cmp 18 20; Rep [13; 22] [(13,22)] [13; 22] 78; Rep [18; 20] [(18,20)] [18;
   20] 80; Cmp 25 38; Cmp 26 37; Cmp 27 40; Cmp 28 39; Cmp 29 33; Rep [28; 39] [(28,39)] [28; 39]
   82; Rep [29; 33] [(29,33)] [29; 33] 84; Cmp 30 31; Rep [25; 38] [(25,38)] [25; 38] 86; Rep [30;
   31] [(30,31)] [30; 31] 88; Cmp 32 36; Rep [26; 37] [(26,37)] [26; 37] 90; Rep [32; 36] [(32,36)]
   [32; 36] 92; Cmp 34 35; Rep [27; 40] [(27,40)] [27; 40] 94; Rep [34; 35] [(34,35)] [34; 35] 96;
   Cmp 41 54; Cmp 42 53; Cmp 43 56; Cmp 44 55; Cmp 45 49; Rep [44; 55] [(44,55)] [44; 55] 98; Rep
   [45; 49] [(45,49)] [45; 49] 100; Cmp 46 47; Rep [41; 54] [(41,54)] [41; 54] 102; Rep [46; 47]
   [(46,47)] [46; 47] 104; Cmp 48 52; Rep [42; 53] [(42,53)] [42; 53] 106; Rep [48; 52] [(48,52)]
   [48; 52] 108; Cmp 50 51; Rep [43; 56] [(43,56)] [43; 56] 110; Rep [50; 51] [(50,51)] [50; 51]
   112; Cmp 16 23; Rep [12; 24] [(12,24)] [12; 24] 114; Rep [16; 17; 23] [(16,23); (17,23)] [23; 16;
   17] 116; Cmp 0 1; Cmp 7 8; Cmp 2 5; Cmp 6 9; Rep [0; 8; 1; 7] [(0,1); (0,7); (1,8); (7,8)] [1; 8;
   0; 7] 119; Rep [2; 6; 5; 9] [(2,6); (2,5); (6,9); (5,9)] [6; 5; 2; 9] 123; Cmp 3 4; Cmp 10 11;
   Rep [3; 11; 4; 10] [(3,4); (3,10); (4,11); (10,11)] [4; 11; 3; 10] 127; Cmp 13 18; Cmp 20 22; Cmp
   14 15; Cmp 19 21; Rep [13; 22; 18; 20] [(13,18); (13,20); (18,22); (20,22)] [18; 22; 13; 20] 131;
   Rep [14; 21; 15; 19] [(14,15); (14,19); (15,21); (19,21)] [15; 21; 14; 19] 135; Cmp 25 30; Cmp 31
   38; Cmp 26 32; Cmp 36 37; Rep [25; 38; 30; 31] [(25,30); (25,31); (30,38); (31,38)] [30; 38; 25;
   31] 139; Rep [26; 37; 32; 36] [(26,32); (26,36); (32,37); (36,37)] [32; 37; 26; 36] 143; Cmp 27
   34; Cmp 35 40; Rep [27; 40; 34; 35] [(27,34); (27,35); (34,40); (35,40)] [34; 40; 27; 35] 147;
   Cmp 28 29; Cmp 33 39; Rep [28; 39; 29; 33] [(28,29); (28,33); (29,39); (33,39)] [29; 39; 28; 33]
   151; Cmp 41 46; Cmp 47 54; Cmp 42 48; Cmp 52 53; Rep [41; 54; 46; 47] [(41,46); (41,47); (46,54);
   (47,54)] [46; 54; 41; 47] 155; Rep [42; 53; 48; 52] [(42,48); (42,52); (48,53); (52,53)] [48; 53;
   42; 52] 159; Cmp 43 50; Cmp 51 56; Rep [43; 56; 50; 51] [(43,50); (43,51); (50,56); (51,56)] [50;
   56; 43; 51] 163; Cmp 44 45; Cmp 49 55; Rep [44; 55; 45; 49] [(44,45); (44,49); (45,55); (49,55)]
   [45; 55; 44; 49] 167; Cmp 12 16; Cmp 23 24; Cmp 0 2; Cmp 1 6; Cmp 1 2; Cmp 13 14; Cmp 15 18; Cmp
   19 20; Cmp 21 22; Rep [12; 24; 16; 17; 23] [(12,16); (12,23); (17,24); (16,24); (23,24)] [16; 24;
   12; 17; 23] 171; Rep [13; 22; 18; 20; 14; 21; 15; 19] [(13,14); (13,15); (13,19); (14,18);
   (14,20); (15,18); (15,21); (19,20); (19,21); (18,22); (20,22); (21,22)] [18; 20; 19; 22; 21; 15;
   13; 14] 176; Cmp 25 26; Cmp 37 38; Cmp 27 28; Cmp 39 40; Cmp 41 42; Cmp 53 54; Cmp 43 44; Cmp 55
   56; Cmp 0 3; Cmp 4 6; Cmp 1 4; Cmp 5 10; Cmp 5 7; Cmp 3 5; Cmp 1 3; Cmp 2 5; Cmp 2 3; Cmp 4 5;
   Cmp 9 11; Cmp 8 11; Cmp 6 8; Cmp 9 10; Cmp 6 9; Cmp 7 10; Cmp 6 7; Cmp 4 6; Cmp 3 4; Cmp 5 7; Cmp
   5 6; Cmp 8 10; Cmp 8 9; Cmp 7 8; Cmp 16 18; Cmp 16 19; Cmp 17 21; Cmp 12 17; Cmp 12 13; Cmp 14
   17; Cmp 14 16; Cmp 20 23; Cmp 15 20; Cmp 13 15; Cmp 13 14; Cmp 15 16; Cmp 14 15; Cmp 18 23; Cmp
   19 20; Cmp 22 24; Cmp 21 22; Cmp 18 21; Cmp 17 18; Cmp 17 19; Cmp 16 17; Cmp 15 16; Cmp 18 20;
   Cmp 18 19; Cmp 17 18; Cmp 22 23; Cmp 21 22; Cmp 20 21; Rep [0; 8; 1; 7; 2; 6; 5; 9; 3; 11; 4; 10]
   [(0,1); (1,2); (2,3); (3,4); (4,5); (5,6); (6,7); (7,8); (8,9); (9,10); (10,11)] [6; 9; 2; 11; 8;
   4; 0; 10; 7; 5; 3; 1] 184; Rep [12; 24; 16; 17; 23; 13; 22; 18; 20; 14; 21; 15; 19] [(12,13);
   (13,14); (14,15); (15,16); (16,17); (17,18); (18,19); (19,20); (20,21); (21,22); (22,23);
   (23,24)] [18; 22; 14; 24; 20; 16; 12; 23; 21; 19; 17; 15; 13] 196; Cmp 5 17; Cmp 6 18; Cmp 7 19;
   Cmp 8 24; Cmp 9 21; Cmp 10 22; Cmp 11 23; Cmp 25 27; Cmp 26 28; Cmp 26 27; Cmp 29 30; Cmp 31 33;
   Cmp 32 34; Cmp 31 32; Cmp 33 34; Cmp 35 36; Cmp 29 35; Cmp 29 31; Cmp 26 29; Cmp 27 31; Cmp 27
   29; Cmp 30 36; Cmp 30 32; Cmp 33 35; Cmp 30 33; Cmp 32 35; Cmp 34 36; Cmp 37 39; Cmp 28 37; Cmp
   28 31; Cmp 28 30; Cmp 28 29; Cmp 31 33; Cmp 30 31; Cmp 38 40; Cmp 38 39; Cmp 34 38; Cmp 34 37;
   Cmp 32 34; Cmp 32 33; Cmp 31 32; Cmp 35 37; Cmp 34 35; Cmp 33 34; Cmp 36 39; Cmp 36 38; Cmp 36
   37; Rep [25; 38; 30; 31; 26; 37; 32; 36; 27; 40; 34; 35; 28; 39; 29; 33] [(25,26); (26,27);
   (27,28); (28,29); (29,30); (30,31); (31,32); (32,33); (33,34); (34,35); (35,36); (36,37);
   (37,38); (38,39); (39,40)] [32; 37; 28; 39; 34; 30; 26; 40; 38; 36; 33; 31; 29; 27; 25; 35] 209;
   Cmp 41 43; Cmp 42 44; Cmp 42 43; Cmp 45 46; Cmp 47 49; Cmp 48 50; Cmp 47 48; Cmp 49 50; Cmp 51
   52; Cmp 45 51; Cmp 45 47; Cmp 42 45; Cmp 43 47; Cmp 43 45; Cmp 46 52; Cmp 46 48; Cmp 49 51; Cmp
   46 49; Cmp 48 51; Cmp 50 52; Cmp 53 55; Cmp 44 53; Cmp 44 47; Cmp 44 46; Cmp 44 45; Cmp 47 49;
   Cmp 46 47; Cmp 54 56; Cmp 54 55; Cmp 50 54; Cmp 50 53; Cmp 48 50; Cmp 48 49; Cmp 47 48; Cmp 51
   53; Cmp 50 51; Cmp 49 50; Cmp 52 55; Cmp 52 54; Cmp 52 53; Rep [41; 54; 46; 47; 42; 53; 48; 52;
   43; 56; 50; 51; 44; 55; 45; 49] [(41,42); (42,43); (43,44); (44,45); (45,46); (46,47); (47,48);
   (48,49); (49,50); (50,51); (51,52); (52,53); (53,54); (54,55); (55,56)] [48; 53; 44; 55; 50; 46;
   42; 56; 54; 52; 49; 47; 45; 43; 41; 51] 225; Cmp 30 46; Cmp 31 47; Cmp 32 48; Cmp 34 50; Cmp 35
   51; Cmp 36 52; Cmp 37 53; Cmp 38 54; Cmp 39 55; Cmp 40 56; Cmp 0 29; Cmp 1 26; Cmp 2 27; Cmp 3
   28; Cmp 4 33; Cmp 5 30; Cmp 6 31; Cmp 7 32; Cmp 8 37; Cmp 9 50; Cmp 9 34; Cmp 10 51; Cmp 10 35;
   Cmp 11 52; Cmp 11 36; Cmp 12 41; Cmp 4 41; Cmp 12 25; Cmp 13 42; Cmp 1 13; Cmp 14 43; Cmp 2 14;
   Cmp 15 44; Cmp 3 15; Cmp 16 45; Cmp 0 16; Cmp 0 12; Cmp 17 38; Cmp 18 39; Cmp 19 40; Cmp 20 49;
   Cmp 20 25; Cmp 4 20; Cmp 4 12; Cmp 1 4; Cmp 21 54; Cmp 21 38; Cmp 22 55; Cmp 22 39; Cmp 23 56;
   Cmp 23 40; Cmp 24 53; Cmp 24 37; Cmp 26 42; Cmp 13 26; Cmp 5 13; Cmp 9 26; Cmp 9 13; Cmp 3 9; Cmp
   27 43; Cmp 14 27; Cmp 6 14; Cmp 10 27; Cmp 10 14; Cmp 28 44; Cmp 15 28; Cmp 7 15; Cmp 11 28; Cmp
   11 15; Cmp 29 45; Cmp 8 29; Cmp 16 29; Cmp 8 16; Cmp 24 45; Cmp 24 29; Cmp 30 46; Cmp 17 30; Cmp
   21 46; Cmp 21 30; Cmp 31 47; Cmp 18 31; Cmp 22 47; Cmp 22 31; Cmp 32 48; Cmp 19 32; Cmp 23 48;
   Cmp 23 32; Cmp 33 49; Cmp 33 41; Cmp 25 33; Cmp 20 25; Cmp 8 20; Cmp 8 12; Cmp 2 8; Cmp 2 4; Cmp
   3 8; Cmp 6 12; Cmp 5 6; Cmp 3 5; Cmp 3 4; Cmp 6 8; Cmp 5 6; Cmp 9 12; Cmp 16 25; Cmp 16 20; Cmp
   10 16; Cmp 33 41; Cmp 24 33; Cmp 24 25; Cmp 29 41; Cmp 29 33; Cmp 34 42; Cmp 26 34; Cmp 17 26;
   Cmp 13 17; Cmp 7 13; Cmp 7 10; Cmp 7 9; Cmp 7 8; Cmp 10 12; Cmp 9 10; Cmp 11 17; Cmp 13 16; Cmp
   21 34; Cmp 21 26; Cmp 35 43; Cmp 27 35; Cmp 18 27; Cmp 14 18; Cmp 14 20; Cmp 11 14; Cmp 11 13;
   Cmp 11 12; Cmp 14 16; Cmp 13 14; Cmp 18 24; Cmp 17 18; Cmp 22 35; Cmp 22 27; Cmp 22 25; Cmp 22
   24; Cmp 27 29; Cmp 36 44; Cmp 28 36; Cmp 19 28; Cmp 15 19; Cmp 15 21; Cmp 15 20; Cmp 15 17; Cmp
   15 16; Cmp 18 20; Cmp 17 18; Cmp 19 26; Cmp 19 21; Cmp 19 22; Cmp 19 20; Cmp 21 24; Cmp 21 22;
   Cmp 23 36; Cmp 23 28; Cmp 25 26; Cmp 37 49; Cmp 37 45; Cmp 37 41; Cmp 38 50; Cmp 38 42; Cmp 30
   38; Cmp 30 34; Cmp 23 30; Cmp 23 27; Cmp 23 25; Cmp 23 24; Cmp 26 27; Cmp 25 26; Cmp 28 34; Cmp
   29 30; Cmp 39 51; Cmp 39 43; Cmp 31 39; Cmp 31 35; Cmp 31 33; Cmp 28 31; Cmp 28 29; Cmp 27 28;
   Cmp 30 31; Cmp 29 30; Cmp 35 37; Cmp 33 35; Cmp 40 52; Cmp 40 44; Cmp 32 40; Cmp 32 36; Cmp 42
   46; Cmp 38 42; Cmp 32 38; Cmp 32 34; Cmp 32 33; Cmp 31 32; Cmp 34 35; Cmp 33 34; Cmp 36 42; Cmp
   36 37; Cmp 43 47; Cmp 39 43; Cmp 39 41; Cmp 38 39; Cmp 36 38; Cmp 35 36; Cmp 37 39; Cmp 37 38;
   Cmp 43 45; Cmp 42 43; Cmp 44 48; Cmp 40 44; Cmp 40 46; Cmp 40 41; Cmp 40 42; Cmp 39 40; Cmp 41
   43; Cmp 41 42; Cmp 44 50; Cmp 45 46; Cmp 47 49; Cmp 44 47; Cmp 44 45; Cmp 43 44; Cmp 46 47; Cmp
   45 46; Cmp 48 54; Cmp 49 50; Cmp 51 53; Cmp 48 51; Cmp 48 49; Cmp 47 48; Cmp 50 51; Cmp 49 50;
   Cmp 52 55; Cmp 53 55; Cmp 53 54; Cmp 52 53; Cmp 51 52; Cmp 53 54; Cmp 55 56].
Lemma check57 : check 57%nat 1 swaps57 plan57 = true.
Proof. vm_cast_no_check (eq_refl true). Qed.
Lemma sorts57 : sorts01 57%nat (map pn swaps57).
Proof. eapply check_sound; [vm_compute; reflexivity|exact check57]. Qed.

Definition plan58 : list op :=
  [Cmp 27 38; Cmp 33 37; Rep [27; 38] [(27,38)] [27; 38] 61; Rep [33; 37] [(33,37)] [33; 37] 63; Cmp
   19 20; Cmp 51 52; Cmp 31 32; Cmp 4 6; Cmp 43 54; Cmp 29 40; Cmp 10 23; Cmp 42 55; Cmp 46 50; Cmp
   28 41; Cmp 47 48; Rep [42; 55] [(42,55)] [42; 55] 65; Rep [47; 48] [(47,48)] [47; 48] 67; Cmp 2
   7; Cmp 12 25; Rep [12; 25] [(12,25)] [12; 25] 69; Rep [19; 20] [(19,20)] [19; 20] 71; Cmp 17 21;
   Cmp 0 8; Rep [0; 8] [(0,8)] [0; 8] 73; Rep [2; 7] [(2,7)] [2; 7] 75; Cmp 15 16; Rep [10; 23]
   [(10,23)] [10; 23] 77; Rep [15; 16] [(15,16)] [15; 16] 79; Cmp 30 34; Rep [29; 40] [(29,40)] [29;
   40] 81; Rep [30; 34] [(30,34)] [30; 34] 83; Cmp 45 56; Rep [45; 56] [(45,56)] [45; 56] 85; Rep
   [46; 50] [(46,50)] [46; 50] 87; Cmp 14 18; Cmp 3 5; Rep [3; 5] [(3,5)] [3; 5] 89; Cmp 49 53; Rep
   [43; 54] [(43,54)] [43; 54] 91; Rep [49; 53] [(49,53)] [49; 53] 93; Cmp 1 9; Rep [1; 9] [(1,9)]
   [1; 9] 95; Rep [4; 6] [(4,6)] [4; 6] 97; Cmp 26 39; Rep [26; 39] [(26,39)] [26; 39] 99; Rep [31;
   32] [(31,32)] [31; 32] 101; Cmp 11 22; Rep [11; 22] [(11,22)] [11; 22] 103; Rep [17; 21]
   [(17,21)] [17; 21] 105; Cmp 13 24; Rep [13; 24] [(13,24)] [13; 24] 107; Rep [14; 18] [(14,18)]
   [14; 18] 109; Cmp 35 36; Rep [28; 41] [(28,41)] [28; 41] 111; Rep [35; 36] [(35,36)] [35; 36]
   113; Cmp 44 57; Rep [44; 57] [(44,57)] [44; 57] 115; Rep [51; 52] [(51,52)] [51; 52] 117; Cmp 37
   38; Cmp 27 33; Cmp 29 30; Cmp 34 40; Cmp 7 9; Cmp 44 51; Cmp 52 57; Cmp 10 15; Cmp 16 23; Cmp 53
   54; Cmp 43 49; Rep [49; 53; 43; 54] [(43,49); (43,53); (49,54); (53,54)] [49; 53; 54; 43] 119;
   Rep [44; 57; 51; 52] [(44,51); (44,52); (51,57); (52,57)] [51; 57; 44; 52] 123; Cmp 50 56; Cmp 45
   46; Rep [46; 50; 45; 56] [(45,46); (45,50); (46,56); (50,56)] [46; 50; 56; 45] 127; Cmp 12 19;
   Cmp 20 25; Cmp 26 31; Cmp 32 39; Rep [26; 39; 31; 32] [(26,31); (26,32); (31,39); (32,39)] [31;
   39; 26; 32] 131; Rep [33; 37; 27; 38] [(27,33); (27,37); (33,38); (37,38)] [33; 37; 38; 27] 135;
   Rep [29; 40; 30; 34] [(29,30); (29,34); (30,40); (34,40)] [30; 40; 29; 34] 139; Cmp 28 35; Cmp 36
   41; Rep [28; 41; 35; 36] [(28,35); (28,36); (35,41); (36,41)] [35; 41; 28; 36] 143; Cmp 48 55;
   Cmp 42 47; Rep [47; 48; 42; 55] [(42,47); (42,48); (47,55); (48,55)] [47; 48; 55; 42] 147; Cmp 11
   17; Cmp 21 22; Rep [10; 23; 15; 16] [(10,15); (10,16); (15,23); (16,23)] [15; 23; 10; 16] 151;
   Rep [11; 22; 17; 21] [(11,17); (11,21); (17,22); (21,22)] [17; 22; 11; 21] 155; Rep [12; 25; 19;
   20] [(12,19); (12,20); (19,25); (20,25)] [19; 25; 12; 20] 159; Cmp 5 8; Cmp 13 14; Cmp 18 24; Rep
   [13; 24; 14; 18] [(13,14); (13,18); (14,24); (18,24)] [14; 24; 13; 18] 163; Cmp 6 9; Cmp 1 4; Cmp
   28 29; Cmp 40 41; Cmp 52 53; Cmp 49 51; Cmp 14 15; Cmp 16 18; Cmp 46 47; Cmp 48 50; Cmp 17 19;
   Cmp 20 21; Cmp 26 27; Cmp 38 39; Cmp 8 9; Cmp 0 2; Cmp 0 3; Cmp 0 1; Cmp 2 4; Cmp 3 6; Cmp 2 3;
   Cmp 4 8; Cmp 5 7; Cmp 1 5; Cmp 1 2; Cmp 3 5; Cmp 2 3; Cmp 6 7; Cmp 4 6; Cmp 4 5; Cmp 3 4; Cmp 7
   8; Cmp 6 7; Cmp 5 6; Cmp 16 17; Cmp 10 11; Cmp 12 13; Cmp 10 12; Cmp 11 13; Cmp 11 12; Cmp 14 20;
   Cmp 14 16; Cmp 11 14; Cmp 12 16; Cmp 12 14; Cmp 15 21; Cmp 15 17; Cmp 18 19; Cmp 18 20; Cmp 15
   18; Cmp 17 20; Cmp 19 21; Cmp 22 23; Cmp 24 25; Cmp 22 24; Cmp 13 22; Cmp 13 16; Cmp 13 15; Cmp
   13 14; Cmp 16 18; Cmp 15 16; Cmp 23 25; Cmp 23 24; Cmp 19 23; Cmp 19 22; Cmp 17 19; Cmp 17 18;
   Cmp 16 17; Cmp 20 22; Cmp 19 20; Cmp 18 19; Cmp 21 24; Cmp 21 23; Cmp 21 22; Rep [3; 5; 0; 8; 4;
   6; 2; 7; 1; 9] [(0,1); (1,2); (2,3); (3,4); (4,5); (5,6); (6,7); (7,8); (8,9)] [5; 8; 2; 9; 6; 3;
   0; 7; 4; 1] 167; Rep [13; 24; 14; 18; 10; 23; 15; 16; 11; 22; 17; 21; 12; 25; 19; 20] [(10,11);
   (11,12); (12,13); (13,14); (14,15); (15,16); (16,17); (17,18); (18,19); (19,20); (20,21);
   (21,22); (22,23); (23,24); (24,25)] [18; 22; 13; 24; 20; 15; 11; 25; 23; 21; 19; 16; 14; 12; 10;
   17] 177; Cmp 8 22; Cmp 2 12; Cmp 3 13; Cmp 9 23; Cmp 12 20; Cmp 13 21; Cmp 38 40; Cmp 26 28; Cmp
   27 29; Cmp 27 28; Cmp 29 38; Cmp 30 31; Cmp 32 34; Cmp 33 35; Cmp 32 33; Cmp 34 35; Cmp 36 37;
   Cmp 30 36; Cmp 30 32; Cmp 27 30; Cmp 28 32; Cmp 28 30; Cmp 29 32; Cmp 31 37; Cmp 31 33; Cmp 34
   36; Cmp 31 34; Cmp 29 31; Cmp 29 30; Cmp 32 34; Cmp 31 32; Cmp 33 36; Cmp 35 37; Cmp 39 41; Cmp
   39 40; Cmp 35 39; Cmp 35 38; Cmp 33 35; Cmp 33 34; Cmp 32 33; Cmp 36 38; Cmp 35 36; Cmp 34 35;
   Cmp 37 40; Cmp 37 39; Cmp 37 38; Rep [26; 39; 31; 32; 33; 37; 27; 38; 28; 41; 35; 36; 29; 40; 30;
   34] [(26,27); (27,28); (28,29); (29,30); (30,31); (31,32); (32,33); (33,34); (34,35); (35,36);
   (36,37); (37,38); (38,39); (39,40); (40,41)] [33; 37; 29; 39; 35; 31; 27; 41; 38; 36; 34; 32; 30;
   28; 26; 40] 193; Cmp 42 43; Cmp 44 45; Cmp 42 44; Cmp 43 45; Cmp 43 44; Cmp 46 52; Cmp 47 53; Cmp
   48 49; Cmp 46 48; Cmp 43 46; Cmp 44 48; Cmp 44 46; Cmp 47 49; Cmp 50 51; Cmp 50 52; Cmp 47 50;
   Cmp 49 52; Cmp 51 53; Cmp 54 55; Cmp 56 57; Cmp 54 56; Cmp 45 54; Cmp 45 48; Cmp 45 47; Cmp 45
   46; Cmp 48 50; Cmp 47 48; Cmp 55 57; Cmp 55 56; Cmp 51 55; Cmp 51 54; Cmp 49 51; Cmp 49 50; Cmp
   48 49; Cmp 52 54; Cmp 51 52; Cmp 50 51; Cmp 53 56; Cmp 53 55; Cmp 53 54; Rep [46; 50; 45; 56; 47;
   48; 42; 55; 44; 57; 51; 52; 49; 53; 43; 54] [(42,43); (43,44); (44,45); (45,46); (46,47);
   (47,48); (48,49); (49,50); (50,51); (51,52); (52,53); (53,54); (54,55); (55,56); (56,57)] [50;
   54; 46; 56; 52; 48; 44; 57; 55; 53; 51; 49; 47; 45; 42; 43] 209; Cmp 38 54; Cmp 28 44; Cmp 29 45;
   Cmp 32 48; Cmp 33 49; Cmp 36 52; Cmp 37 53; Cmp 39 55; Cmp 5 35; Cmp 0 30; Cmp 1 31; Cmp 2 28;
   Cmp 3 29; Cmp 4 34; Cmp 6 56; Cmp 7 57; Cmp 8 38; Cmp 9 39; Cmp 10 42; Cmp 4 42; Cmp 10 26; Cmp
   11 43; Cmp 5 43; Cmp 11 27; Cmp 12 44; Cmp 12 28; Cmp 13 45; Cmp 13 29; Cmp 14 46; Cmp 0 14; Cmp
   0 10; Cmp 15 47; Cmp 1 15; Cmp 1 11; Cmp 18 50; Cmp 18 26; Cmp 4 18; Cmp 4 10; Cmp 1 4; Cmp 19
   51; Cmp 19 27; Cmp 5 19; Cmp 5 11; Cmp 20 52; Cmp 20 36; Cmp 20 28; Cmp 21 53; Cmp 21 37; Cmp 21
   29; Cmp 22 54; Cmp 22 38; Cmp 23 55; Cmp 23 39; Cmp 24 40; Cmp 6 24; Cmp 6 16; Cmp 6 32; Cmp 6
   12; Cmp 12 20; Cmp 16 48; Cmp 16 32; Cmp 25 41; Cmp 7 25; Cmp 7 17; Cmp 7 33; Cmp 7 13; Cmp 13
   21; Cmp 17 49; Cmp 17 33; Cmp 30 46; Cmp 8 30; Cmp 14 30; Cmp 8 14; Cmp 22 46; Cmp 22 30; Cmp 31
   47; Cmp 9 31; Cmp 15 31; Cmp 9 15; Cmp 23 47; Cmp 23 31; Cmp 34 50; Cmp 34 42; Cmp 26 34; Cmp 18
   26; Cmp 8 18; Cmp 8 10; Cmp 2 8; Cmp 2 4; Cmp 6 10; Cmp 5 6; Cmp 14 26; Cmp 14 18; Cmp 12 14; Cmp
   34 42; Cmp 22 34; Cmp 22 26; Cmp 30 42; Cmp 30 34; Cmp 35 51; Cmp 35 43; Cmp 27 35; Cmp 19 27;
   Cmp 9 19; Cmp 9 11; Cmp 3 9; Cmp 3 8; Cmp 3 5; Cmp 3 4; Cmp 6 8; Cmp 5 6; Cmp 7 11; Cmp 7 12; Cmp
   9 10; Cmp 7 9; Cmp 7 8; Cmp 10 12; Cmp 9 10; Cmp 11 14; Cmp 15 27; Cmp 15 19; Cmp 13 15; Cmp 35
   43; Cmp 23 35; Cmp 23 27; Cmp 31 43; Cmp 31 35; Cmp 36 44; Cmp 28 36; Cmp 16 28; Cmp 16 20; Cmp
   16 18; Cmp 13 16; Cmp 11 13; Cmp 11 12; Cmp 14 16; Cmp 13 14; Cmp 20 22; Cmp 15 20; Cmp 37 45;
   Cmp 29 37; Cmp 17 29; Cmp 17 21; Cmp 17 19; Cmp 17 18; Cmp 15 17; Cmp 15 16; Cmp 18 20; Cmp 17
   18; Cmp 21 23; Cmp 21 22; Cmp 38 50; Cmp 38 46; Cmp 38 42; Cmp 39 51; Cmp 39 47; Cmp 39 43; Cmp
   40 56; Cmp 24 40; Cmp 24 48; Cmp 24 32; Cmp 24 36; Cmp 24 28; Cmp 24 26; Cmp 19 24; Cmp 19 21;
   Cmp 19 20; Cmp 22 24; Cmp 21 22; Cmp 28 30; Cmp 23 28; Cmp 32 44; Cmp 32 36; Cmp 32 34; Cmp 30
   32; Cmp 36 38; Cmp 40 52; Cmp 40 48; Cmp 40 44; Cmp 40 42; Cmp 41 57; Cmp 25 41; Cmp 25 49; Cmp
   25 33; Cmp 25 37; Cmp 25 29; Cmp 25 27; Cmp 25 26; Cmp 23 25; Cmp 23 24; Cmp 26 28; Cmp 25 26;
   Cmp 29 31; Cmp 27 29; Cmp 27 30; Cmp 27 28; Cmp 29 32; Cmp 29 30; Cmp 31 34; Cmp 33 45; Cmp 33
   37; Cmp 33 35; Cmp 33 36; Cmp 31 33; Cmp 31 32; Cmp 34 36; Cmp 33 34; Cmp 35 38; Cmp 37 39; Cmp
   37 40; Cmp 35 37; Cmp 35 36; Cmp 38 40; Cmp 37 38; Cmp 39 42; Cmp 41 53; Cmp 41 49; Cmp 41 45;
   Cmp 41 43; Cmp 44 46; Cmp 41 44; Cmp 39 41; Cmp 39 40; Cmp 42 44; Cmp 41 42; Cmp 45 47; Cmp 45
   46; Cmp 48 50; Cmp 43 48; Cmp 43 45; Cmp 43 44; Cmp 46 48; Cmp 45 46; Cmp 47 50; Cmp 49 51; Cmp
   52 54; Cmp 49 52; Cmp 49 50; Cmp 47 49; Cmp 47 48; Cmp 50 52; Cmp 51 54; Cmp 53 56; Cmp 55 57;
   Cmp 54 55; Cmp 53 54; Cmp 51 53; Cmp 51 52; Cmp 55 56; Cmp 54 55].
Lemma check58 : check 58%nat 1 swaps58 plan58 = true.
Proof. vm_cast_no_check (eq_refl true). Qed.
Lemma sorts58 : sorts01 58%nat (map pn swaps58).
Proof. eapply check_sound; [vm_compute; reflexivity|exact check58]. Qed.

Definition plan59 : list op :=
  [Cmp 12 23; Cmp 29 42; Cmp 0 9; Cmp 14 25; Cmp 1 6; Rep [0; 9] [(0,9)] [0; 9] 62; Rep [1; 6] [(1,6)]
   [1; 6] 64; Cmp 2 4; Rep [2; 4] [(2,4)] [2; 4] 66; Cmp 44 55; Cmp 45 58; Cmp 27 40; Cmp 47 51; Cmp
   13 26; Cmp 32 33; Rep [27; 40] [(27,40)] [27; 40] 68; Rep [32; 33] [(32,33)] [32; 33] 70; Cmp 30
   41; Cmp 36 37; Rep [29; 42] [(29,42)] [29; 42] 72; Rep [36; 37] [(36,37)] [36; 37] 74; Cmp 34 38;
   Cmp 50 54; Rep [44; 55] [(44,55)] [44; 55] 76; Rep [50; 54] [(50,54)] [50; 54] 78; Cmp 46 57; Rep
   [46; 57] [(46,57)] [46; 57] 80; Rep [47; 51] [(47,51)] [47; 51] 82; Cmp 20 21; Rep [13; 26]
   [(13,26)] [13; 26] 84; Rep [20; 21] [(20,21)] [20; 21] 86; Cmp 43 56; Cmp 31 35; Rep [30; 41]
   [(30,41)] [30; 41] 88; Rep [31; 35] [(31,35)] [31; 35] 90; Cmp 48 49; Rep [43; 56] [(43,56)] [43;
   56] 92; Rep [48; 49] [(48,49)] [48; 49] 94; Cmp 18 22; Rep [12; 23] [(12,23)] [12; 23] 96; Rep
   [18; 22] [(18,22)] [18; 22] 98; Cmp 52 53; Rep [45; 58] [(45,58)] [45; 58] 100; Rep [52; 53]
   [(52,53)] [52; 53] 102; Cmp 16 17; Cmp 3 7; Cmp 5 8; Rep [3; 7] [(3,7)] [3; 7] 104; Rep [5; 8]
   [(5,8)] [5; 8] 106; Cmp 35 41; Cmp 30 31; Cmp 15 19; Rep [14; 25] [(14,25)] [14; 25] 108; Rep
   [15; 19] [(15,19)] [15; 19] 110; Cmp 28 39; Rep [28; 39] [(28,39)] [28; 39] 112; Rep [34; 38]
   [(34,38)] [34; 38] 114; Cmp 38 39; Cmp 28 34; Cmp 4 10; Cmp 43 48; Cmp 49 56; Cmp 11 24; Rep [11;
   24] [(11,24)] [11; 24] 116; Rep [16; 17] [(16,17)] [16; 17] 118; Cmp 19 25; Cmp 14 15; Cmp 22 23;
   Cmp 12 18; Cmp 0 1; Cmp 6 9; Cmp 33 40; Cmp 27 32; Rep [32; 33; 27; 40] [(27,32); (27,33);
   (32,40); (33,40)] [32; 33; 40; 27] 120; Rep [34; 38; 28; 39] [(28,34); (28,38); (34,39); (38,39)]
   [34; 38; 39; 28] 124; Rep [31; 35; 30; 41] [(30,31); (30,35); (31,41); (35,41)] [31; 35; 41; 30]
   128; Cmp 54 55; Cmp 44 50; Rep [43; 56; 48; 49] [(43,48); (43,49); (48,56); (49,56)] [48; 56; 43;
   49] 132; Rep [50; 54; 44; 55] [(44,50); (44,54); (50,55); (54,55)] [50; 54; 55; 44] 136; Cmp 37
   42; Cmp 29 36; Rep [36; 37; 29; 42] [(29,36); (29,37); (36,42); (37,42)] [36; 37; 42; 29] 140;
   Cmp 13 20; Cmp 21 26; Rep [13; 26; 20; 21] [(13,20); (13,21); (20,26); (21,26)] [20; 26; 13; 21]
   144; Rep [15; 19; 14; 25] [(14,15); (14,19); (15,25); (19,25)] [15; 19; 25; 14] 148; Rep [18; 22;
   12; 23] [(12,18); (12,22); (18,23); (22,23)] [18; 22; 23; 12] 152; Cmp 17 24; Cmp 11 16; Rep [16;
   17; 11; 24] [(11,16); (11,17); (16,24); (17,24)] [16; 17; 24; 11] 156; Cmp 53 58; Cmp 45 52; Rep
   [52; 53; 45; 58] [(45,52); (45,53); (52,58); (53,58)] [52; 53; 58; 45] 160; Cmp 46 47; Cmp 51 57;
   Rep [46; 57; 47; 51] [(46,47); (46,51); (47,57); (51,57)] [47; 57; 46; 51] 164; Cmp 3 5; Cmp 7 8;
   Rep [0; 9; 1; 6] [(0,1); (0,6); (1,9); (6,9)] [1; 9; 0; 6] 168; Rep [3; 7; 5; 8] [(3,7); (3,5);
   (7,8); (5,8)] [7; 5; 3; 8] 172; Rep [2; 4; 10] [(2,10); (4,10)] [10; 2; 4] 176; Cmp 4 7; Cmp 2 5;
   Cmp 8 10; Rep [2; 4; 10; 3; 7; 5; 8] [(2,5); (2,8); (4,7); (4,8); (3,7); (3,5); (7,10); (5,10);
   (8,10)] [7; 5; 2; 10; 4; 8; 3] 179; Cmp 21 22; Cmp 18 20; Cmp 41 42; Cmp 29 30; Cmp 17 19; Cmp 15
   16; Cmp 53 54; Cmp 50 52; Cmp 49 51; Cmp 47 48; Cmp 39 40; Cmp 27 28; Cmp 5 9; Cmp 0 4; Cmp 1 3;
   Cmp 1 2; Cmp 0 1; Cmp 3 7; Cmp 4 5; Cmp 6 8; Cmp 2 6; Cmp 2 4; Cmp 1 2; Cmp 3 6; Cmp 3 4; Cmp 2
   3; Cmp 7 8; Cmp 5 7; Cmp 5 6; Cmp 4 5; Cmp 9 10; Cmp 8 9; Cmp 7 8; Cmp 6 7; Cmp 31 32; Cmp 27 29;
   Cmp 28 30; Cmp 28 29; Cmp 33 35; Cmp 34 36; Cmp 33 34; Cmp 35 36; Cmp 37 38; Cmp 31 37; Cmp 31
   33; Cmp 28 31; Cmp 29 33; Cmp 29 31; Cmp 32 38; Cmp 32 34; Cmp 35 37; Cmp 32 35; Cmp 34 37; Cmp
   36 38; Cmp 39 41; Cmp 30 39; Cmp 30 33; Cmp 30 32; Cmp 30 31; Cmp 33 35; Cmp 32 33; Cmp 40 42;
   Cmp 40 41; Cmp 36 40; Cmp 36 39; Cmp 34 36; Cmp 34 35; Cmp 33 34; Cmp 37 39; Cmp 36 37; Cmp 35
   36; Cmp 38 41; Cmp 38 40; Cmp 38 39; Rep [2; 4; 10; 3; 7; 5; 8; 0; 9; 1; 6] [(0,1); (1,2); (2,3);
   (3,4); (4,5); (5,6); (6,7); (7,8); (8,9); (9,10)] [5; 8; 2; 10; 7; 4; 0; 9; 6; 3; 1] 186; Rep
   [31; 35; 30; 41; 36; 37; 29; 42; 34; 38; 28; 39; 32; 33; 27; 40] [(27,28); (28,29); (29,30);
   (30,31); (31,32); (32,33); (33,34); (34,35); (35,36); (36,37); (37,38); (38,39); (39,40);
   (40,41); (41,42)] [35; 39; 31; 41; 37; 33; 29; 42; 40; 38; 36; 34; 32; 30; 28; 27] 197; Cmp 0 31;
   Cmp 1 32; Cmp 2 33; Cmp 4 35; Cmp 5 36; Cmp 6 37; Cmp 55 56; Cmp 43 44; Cmp 45 46; Cmp 43 45; Cmp
   44 46; Cmp 44 45; Cmp 47 53; Cmp 48 54; Cmp 49 50; Cmp 47 49; Cmp 44 47; Cmp 45 49; Cmp 45 47;
   Cmp 48 50; Cmp 51 52; Cmp 51 53; Cmp 48 51; Cmp 50 53; Cmp 52 54; Cmp 57 58; Cmp 55 57; Cmp 46
   55; Cmp 46 49; Cmp 46 48; Cmp 46 47; Cmp 49 51; Cmp 48 49; Cmp 56 58; Cmp 56 57; Cmp 52 56; Cmp
   52 55; Cmp 50 52; Cmp 50 51; Cmp 49 50; Cmp 53 55; Cmp 52 53; Cmp 51 52; Cmp 54 57; Cmp 54 56;
   Cmp 54 55; Rep [52; 53; 45; 58; 50; 54; 44; 55; 43; 56; 48; 49; 46; 57; 47; 51] [(43,44);
   (44,45); (45,46); (46,47); (47,48); (48,49); (49,50); (50,51); (51,52); (52,53); (53,54);
   (54,55); (55,56); (56,57); (57,58)] [50; 54; 46; 56; 52; 48; 44; 58; 55; 53; 51; 49; 47; 45; 43;
   57] 213; Cmp 19 20; Cmp 11 12; Cmp 13 14; Cmp 11 13; Cmp 12 14; Cmp 12 13; Cmp 15 21; Cmp 16 22;
   Cmp 17 18; Cmp 15 17; Cmp 12 15; Cmp 13 17; Cmp 13 15; Cmp 16 18; Cmp 19 21; Cmp 16 19; Cmp 18
   21; Cmp 20 22; Cmp 23 24; Cmp 25 26; Cmp 23 25; Cmp 14 23; Cmp 14 17; Cmp 14 16; Cmp 14 15; Cmp
   17 19; Cmp 16 17; Cmp 24 26; Cmp 24 25; Cmp 20 24; Cmp 20 23; Cmp 18 20; Cmp 18 19; Cmp 17 18;
   Cmp 21 23; Cmp 20 21; Cmp 19 20; Cmp 22 25; Cmp 22 24; Cmp 22 23; Rep [16; 17; 11; 24; 15; 19;
   14; 25; 13; 26; 20; 21; 18; 22; 12; 23] [(11,12); (12,13); (13,14); (14,15); (15,16); (16,17);
   (17,18); (18,19); (19,20); (20,21); (21,22); (22,23); (23,24); (24,25); (25,26)] [19; 23; 15; 25;
   21; 17; 13; 26; 24; 22; 20; 18; 16; 14; 11; 12] 229; Cmp 19 51; Cmp 11 43; Cmp 12 44; Cmp 13 45;
   Cmp 15 47; Cmp 16 48; Cmp 17 49; Cmp 20 52; Cmp 21 53; Cmp 38 54; Cmp 0 15; Cmp 1 16; Cmp 2 17;
   Cmp 3 14; Cmp 4 43; Cmp 5 44; Cmp 6 45; Cmp 7 58; Cmp 8 23; Cmp 9 24; Cmp 10 25; Cmp 11 27; Cmp 0
   11; Cmp 12 28; Cmp 1 12; Cmp 13 29; Cmp 2 13; Cmp 14 22; Cmp 19 27; Cmp 4 19; Cmp 4 11; Cmp 1 4;
   Cmp 20 28; Cmp 5 20; Cmp 5 12; Cmp 21 29; Cmp 6 21; Cmp 6 13; Cmp 22 54; Cmp 22 38; Cmp 26 42;
   Cmp 7 26; Cmp 7 18; Cmp 30 46; Cmp 3 30; Cmp 14 46; Cmp 14 30; Cmp 22 30; Cmp 31 47; Cmp 32 48;
   Cmp 33 49; Cmp 34 50; Cmp 7 34; Cmp 7 14; Cmp 14 22; Cmp 18 50; Cmp 18 34; Cmp 35 51; Cmp 35 43;
   Cmp 27 35; Cmp 19 27; Cmp 35 43; Cmp 36 52; Cmp 36 44; Cmp 28 36; Cmp 20 28; Cmp 36 44; Cmp 37
   53; Cmp 37 45; Cmp 29 37; Cmp 21 29; Cmp 37 45; Cmp 38 46; Cmp 30 38; Cmp 18 30; Cmp 18 22; Cmp
   39 55; Cmp 8 39; Cmp 8 31; Cmp 15 31; Cmp 8 15; Cmp 8 19; Cmp 8 11; Cmp 2 8; Cmp 2 4; Cmp 6 11;
   Cmp 6 8; Cmp 15 27; Cmp 15 19; Cmp 23 55; Cmp 23 39; Cmp 23 47; Cmp 23 31; Cmp 23 35; Cmp 23 27;
   Cmp 31 43; Cmp 31 35; Cmp 39 51; Cmp 39 47; Cmp 39 43; Cmp 40 56; Cmp 9 40; Cmp 9 32; Cmp 16 32;
   Cmp 9 16; Cmp 9 20; Cmp 9 12; Cmp 3 9; Cmp 3 5; Cmp 3 6; Cmp 3 4; Cmp 5 8; Cmp 5 6; Cmp 7 12; Cmp
   7 9; Cmp 16 28; Cmp 16 20; Cmp 14 16; Cmp 18 20; Cmp 24 56; Cmp 24 40; Cmp 24 48; Cmp 24 32; Cmp
   24 36; Cmp 24 28; Cmp 22 24; Cmp 20 22; Cmp 32 44; Cmp 32 36; Cmp 40 52; Cmp 40 48; Cmp 40 44;
   Cmp 41 57; Cmp 10 41; Cmp 10 33; Cmp 17 33; Cmp 10 17; Cmp 10 21; Cmp 10 13; Cmp 10 15; Cmp 10
   11; Cmp 7 10; Cmp 7 8; Cmp 9 11; Cmp 9 10; Cmp 13 19; Cmp 12 13; Cmp 14 15; Cmp 12 14; Cmp 11 12;
   Cmp 13 15; Cmp 13 14; Cmp 16 19; Cmp 17 29; Cmp 17 21; Cmp 17 23; Cmp 17 18; Cmp 16 17; Cmp 15
   16; Cmp 18 19; Cmp 17 18; Cmp 21 27; Cmp 21 23; Cmp 20 21; Cmp 19 20; Cmp 22 23; Cmp 21 22; Cmp
   24 27; Cmp 25 57; Cmp 25 41; Cmp 25 49; Cmp 25 33; Cmp 25 37; Cmp 25 29; Cmp 25 31; Cmp 29 35;
   Cmp 33 45; Cmp 33 37; Cmp 33 39; Cmp 37 43; Cmp 41 53; Cmp 41 49; Cmp 41 45; Cmp 41 47; Cmp 41
   43; Cmp 42 58; Cmp 26 42; Cmp 26 50; Cmp 26 34; Cmp 26 38; Cmp 26 30; Cmp 26 28; Cmp 25 26; Cmp
   24 25; Cmp 23 24; Cmp 26 27; Cmp 25 26; Cmp 28 31; Cmp 30 32; Cmp 29 30; Cmp 28 29; Cmp 27 28;
   Cmp 30 31; Cmp 29 30; Cmp 32 35; Cmp 34 46; Cmp 34 38; Cmp 34 36; Cmp 33 34; Cmp 32 33; Cmp 31
   32; Cmp 34 35; Cmp 33 34; Cmp 36 39; Cmp 38 40; Cmp 37 38; Cmp 36 37; Cmp 35 36; Cmp 38 39; Cmp
   37 38; Cmp 42 54; Cmp 42 50; Cmp 42 46; Cmp 42 44; Cmp 40 42; Cmp 40 41; Cmp 39 40; Cmp 42 43;
   Cmp 41 42; Cmp 45 51; Cmp 44 45; Cmp 46 48; Cmp 46 47; Cmp 44 46; Cmp 43 44; Cmp 45 47; Cmp 45
   46; Cmp 49 55; Cmp 49 51; Cmp 50 53; Cmp 50 52; Cmp 48 50; Cmp 48 49; Cmp 47 48; Cmp 50 51; Cmp
   49 50; Cmp 54 56; Cmp 54 55; Cmp 52 54; Cmp 51 52; Cmp 53 55; Cmp 53 54; Cmp 57 58; Cmp 56 57;
   Cmp 55 56].
Lemma check59 : check 59%nat 1 swaps59 plan59 = true.
Proof. vm_cast_no_check (eq_refl true). Qed.
Lemma sorts59 : sorts01 59%nat (map pn swaps59).
Proof. eapply check_sound; [vm_compute; reflexivity|exact check59]. Qed.

Definition plan60 : list op :=
  [Cmp 52 57; Cmp 1 2; Cmp 22 27; Cmp 49 59; Rep [49; 59] [(49,59)] [49; 59] 63; Cmp 35 38; Cmp 20 23;
   Cmp 4 14; Rep [4; 14] [(4,14)] [4; 14] 65; Cmp 21 28; Cmp 19 29; Rep [19; 29] [(19,29)] [19; 29]
   67; Cmp 50 53; Cmp 6 13; Cmp 48 55; Rep [48; 55] [(48,55)] [48; 55] 69; Rep [52; 57] [(52,57)]
   [52; 57] 71; Cmp 37 42; Cmp 39 41; Cmp 7 12; Cmp 24 26; Rep [21; 28] [(21,28)] [21; 28] 73; Rep
   [24; 26] [(24,26)] [24; 26] 75; Cmp 46 47; Rep [46; 47] [(46,47)] [46; 47] 77; Rep [50; 53]
   [(50,53)] [50; 53] 79; Cmp 36 43; Rep [36; 43] [(36,43)] [36; 43] 81; Rep [39; 41] [(39,41)] [39;
   41] 83; Cmp 31 32; Rep [31; 32] [(31,32)] [31; 32] 85; Rep [35; 38] [(35,38)] [35; 38] 87; Cmp 9
   11; Rep [6; 13] [(6,13)] [6; 13] 89; Rep [9; 11] [(9,11)] [9; 11] 91; Cmp 0 14; Cmp 5 8; Rep [1;
   2] [(1,2)] [1; 2] 93; Rep [5; 8] [(5,8)] [5; 8] 95; Cmp 3 10; Rep [3; 10] [(3,10)] [3; 10] 97;
   Rep [7; 12] [(7,12)] [7; 12] 99; Cmp 16 17; Rep [16; 17] [(16,17)] [16; 17] 101; Rep [20; 23]
   [(20,23)] [20; 23] 103; Cmp 33 40; Rep [33; 40] [(33,40)] [33; 40] 105; Rep [37; 42] [(37,42)]
   [37; 42] 107; Cmp 54 56; Cmp 18 25; Rep [18; 25] [(18,25)] [18; 25] 109; Rep [22; 27] [(22,27)]
   [22; 27] 111; Cmp 45 59; Cmp 15 29; Cmp 1 5; Cmp 2 8; Cmp 51 58; Rep [51; 58] [(51,58)] [51; 58]
   113; Rep [54; 56] [(54,56)] [54; 56] 115; Cmp 16 20; Cmp 17 23; Cmp 34 44; Rep [34; 44] [(34,44)]
   [34; 44] 117; Cmp 32 38; Cmp 31 35; Cmp 30 44; Cmp 51 54; Cmp 56 58; Cmp 3 7; Cmp 10 12; Rep [0;
   4; 14] [(0,14); (4,14)] [14; 0; 4] 119; Rep [3; 10; 7; 12] [(3,10); (3,7); (10,12); (7,12)] [10;
   7; 3; 12] 122; Cmp 55 57; Cmp 48 52; Rep [45; 49; 59] [(45,59); (49,59)] [59; 45; 49] 126; Rep
   [48; 55; 52; 57] [(48,55); (48,52); (55,57); (52,57)] [55; 52; 48; 57] 129; Cmp 47 53; Cmp 46 50;
   Rep [46; 47; 50; 53] [(46,47); (46,50); (47,53); (50,53)] [47; 50; 46; 53] 133; Rep [51; 58; 54;
   56] [(51,54); (51,56); (54,58); (56,58)] [54; 58; 51; 56] 137; Cmp 21 24; Cmp 26 28; Rep [16; 17;
   20; 23] [(16,17); (16,20); (17,23); (20,23)] [17; 20; 16; 23] 141; Rep [21; 28; 24; 26] [(21,24);
   (21,26); (24,28); (26,28)] [24; 28; 21; 26] 145; Cmp 36 39; Cmp 41 43; Rep [31; 32; 35; 38]
   [(31,32); (31,35); (32,38); (35,38)] [32; 35; 31; 38] 149; Rep [36; 43; 39; 41] [(36,39);
   (36,41); (39,43); (41,43)] [39; 43; 36; 41] 153; Cmp 33 37; Cmp 40 42; Rep [30; 34; 44] [(30,44);
   (34,44)] [44; 30; 34] 157; Rep [33; 40; 37; 42] [(33,40); (33,37); (40,42); (37,42)] [40; 37; 33;
   42] 160; Cmp 25 27; Cmp 18 22; Rep [15; 19; 29] [(15,29); (19,29)] [29; 15; 19] 164; Rep [18; 25;
   22; 27] [(18,25); (18,22); (25,27); (22,27)] [25; 22; 18; 27] 167; Cmp 6 9; Cmp 11 13; Rep [1; 2;
   5; 8] [(1,2); (1,5); (2,8); (5,8)] [2; 5; 1; 8] 171; Rep [6; 13; 9; 11] [(6,9); (6,11); (9,13);
   (11,13)] [9; 13; 6; 11] 175; Cmp 27 29; Cmp 15 22; Cmp 19 25; Cmp 45 52; Cmp 49 55; Cmp 57 59;
   Cmp 31 36; Cmp 32 39; Cmp 35 41; Cmp 38 43; Rep [31; 32; 35; 38; 36; 43; 39; 41] [(31,32);
   (31,35); (31,36); (32,38); (32,39); (35,38); (35,41); (36,39); (36,41); (38,43); (39,43);
   (41,43)] [32; 41; 35; 43; 31; 38; 36; 39] 179; Cmp 42 44; Cmp 30 37; Cmp 34 40; Rep [33; 40; 37;
   42; 30; 34; 44] [(33,40); (33,37); (30,37); (30,42); (34,40); (34,42); (40,44); (37,44); (42,44)]
   [40; 37; 42; 44; 30; 34; 33] 187; Cmp 8 13; Cmp 1 6; Cmp 2 9; Cmp 5 11; Rep [1; 2; 5; 8; 6; 13;
   9; 11] [(1,2); (1,5); (1,6); (2,8); (2,9); (5,8); (5,11); (6,9); (6,11); (8,13); (9,13); (11,13)]
   [2; 11; 5; 13; 1; 8; 6; 9] 194; Cmp 12 14; Cmp 0 7; Cmp 4 10; Rep [3; 10; 7; 12; 0; 4; 14]
   [(3,10); (3,7); (0,7); (0,12); (4,10); (4,12); (10,14); (7,14); (12,14)] [10; 7; 12; 14; 0; 4; 3]
   202; Cmp 23 28; Cmp 16 21; Cmp 17 24; Cmp 20 26; Rep [18; 25; 22; 27; 15; 19; 29] [(18,25);
   (18,22); (15,22); (15,27); (19,25); (19,27); (25,29); (22,29); (27,29)] [25; 22; 27; 29; 15; 19;
   18] 209; Rep [16; 17; 20; 23; 21; 28; 24; 26] [(16,17); (16,20); (16,21); (17,23); (17,24);
   (20,23); (20,26); (21,24); (21,26); (23,28); (24,28); (26,28)] [17; 26; 20; 28; 16; 23; 21; 24]
   216; Cmp 47 54; Cmp 46 51; Cmp 50 56; Cmp 53 58; Rep [45; 49; 59; 48; 55; 52; 57] [(45,52);
   (45,57); (49,55); (49,57); (48,55); (48,52); (55,59); (52,59); (57,59)] [55; 52; 45; 59; 49; 57;
   48] 224; Rep [46; 47; 50; 53; 51; 58; 54; 56] [(46,47); (46,50); (46,51); (47,53); (47,54);
   (50,53); (50,56); (51,54); (51,56); (53,58); (54,58); (56,58)] [47; 56; 50; 58; 46; 53; 51; 54]
   231; Cmp 33 35; Cmp 30 36; Cmp 30 33; Cmp 32 34; Cmp 31 32; Cmp 30 31; Cmp 32 33; Cmp 31 32; Cmp
   37 41; Cmp 34 37; Cmp 38 40; Cmp 36 38; Cmp 34 36; Cmp 39 42; Cmp 35 39; Cmp 33 35; Cmp 33 34;
   Cmp 32 33; Cmp 35 36; Cmp 34 35; Cmp 37 39; Cmp 40 41; Cmp 43 44; Cmp 42 43; Cmp 40 42; Cmp 38
   40; Cmp 37 38; Cmp 36 37; Cmp 35 36; Cmp 39 40; Cmp 38 39; Cmp 37 38; Cmp 41 43; Cmp 41 42; Cmp
   40 41; Cmp 0 6; Cmp 2 4; Cmp 1 2; Cmp 3 5; Cmp 0 3; Cmp 0 1; Cmp 2 3; Cmp 1 2; Cmp 7 11; Cmp 4 7;
   Cmp 8 10; Cmp 6 8; Cmp 4 6; Cmp 9 12; Cmp 5 9; Cmp 3 5; Cmp 3 4; Cmp 2 3; Cmp 5 6; Cmp 4 5; Cmp 7
   9; Cmp 10 11; Cmp 13 14; Cmp 12 13; Cmp 10 12; Cmp 8 10; Cmp 7 8; Cmp 6 7; Cmp 5 6; Cmp 9 10; Cmp
   8 9; Cmp 7 8; Cmp 11 13; Cmp 11 12; Cmp 10 11; Rep [3; 10; 7; 12; 0; 4; 14; 1; 2; 5; 8; 6; 13; 9;
   11] [(0,1); (1,2); (2,3); (3,4); (4,5); (5,6); (6,7); (7,8); (8,9); (9,10); (10,11); (11,12);
   (12,13); (13,14)] [7; 11; 3; 13; 9; 5; 1; 14; 12; 10; 8; 6; 4; 2; 0] 239; Rep [33; 40; 37; 42;
   30; 34; 44; 31; 32; 35; 38; 36; 43; 39; 41] [(30,31); (31,32); (32,33); (33,34); (34,35);
   (35,36); (36,37); (37,38); (38,39); (39,40); (40,41); (41,42); (42,43); (43,44)] [37; 41; 33; 43;
   39; 35; 31; 44; 42; 40; 38; 36; 34; 32; 30] 254; Cmp 8 38; Cmp 0 30; Cmp 1 31; Cmp 2 32; Cmp 7
   37; Cmp 9 39; Cmp 10 40; Cmp 53 55; Cmp 45 51; Cmp 47 49; Cmp 46 47; Cmp 48 50; Cmp 45 48; Cmp 45
   46; Cmp 47 48; Cmp 46 47; Cmp 51 53; Cmp 52 56; Cmp 49 52; Cmp 49 51; Cmp 54 57; Cmp 50 54; Cmp
   48 50; Cmp 48 49; Cmp 47 48; Cmp 50 51; Cmp 49 50; Cmp 52 54; Cmp 55 56; Cmp 58 59; Cmp 57 58;
   Cmp 55 57; Cmp 53 55; Cmp 52 53; Cmp 51 52; Cmp 50 51; Cmp 54 55; Cmp 53 54; Cmp 52 53; Cmp 56
   58; Cmp 56 57; Cmp 55 56; Rep [46; 47; 50; 53; 51; 58; 54; 56; 45; 49; 59; 48; 55; 52; 57]
   [(45,46); (46,47); (47,48); (48,49); (49,50); (50,51); (51,52); (52,53); (53,54); (54,55);
   (55,56); (56,57); (57,58); (58,59)] [52; 56; 48; 58; 54; 50; 46; 59; 57; 55; 53; 51; 49; 47; 45]
   269; Cmp 22 26; Cmp 15 21; Cmp 17 19; Cmp 16 17; Cmp 18 20; Cmp 15 18; Cmp 15 16; Cmp 17 18; Cmp
   16 17; Cmp 19 22; Cmp 23 25; Cmp 21 23; Cmp 19 21; Cmp 24 27; Cmp 20 24; Cmp 18 20; Cmp 18 19;
   Cmp 17 18; Cmp 20 21; Cmp 19 20; Cmp 22 24; Cmp 25 26; Cmp 28 29; Cmp 27 28; Cmp 25 27; Cmp 23
   25; Cmp 22 23; Cmp 21 22; Cmp 20 21; Cmp 24 25; Cmp 23 24; Cmp 22 23; Cmp 26 28; Cmp 26 27; Cmp
   25 26; Rep [18; 25; 22; 27; 15; 19; 29; 16; 17; 20; 23; 21; 28; 24; 26] [(15,16); (16,17);
   (17,18); (18,19); (19,20); (20,21); (21,22); (22,23); (23,24); (24,25); (25,26); (26,27);
   (27,28); (28,29)] [22; 26; 18; 28; 24; 20; 16; 29; 27; 25; 23; 21; 19; 17; 15] 284; Cmp 22 52;
   Cmp 15 45; Cmp 16 46; Cmp 17 47; Cmp 23 53; Cmp 24 54; Cmp 25 55; Cmp 41 56; Cmp 0 15; Cmp 1 16;
   Cmp 2 17; Cmp 3 18; Cmp 4 49; Cmp 5 50; Cmp 6 51; Cmp 7 22; Cmp 8 23; Cmp 9 24; Cmp 10 25; Cmp 11
   26; Cmp 11 41; Cmp 12 57; Cmp 13 58; Cmp 14 59; Cmp 19 34; Cmp 4 19; Cmp 20 35; Cmp 5 20; Cmp 21
   36; Cmp 6 21; Cmp 26 56; Cmp 26 41; Cmp 27 42; Cmp 12 27; Cmp 12 19; Cmp 28 43; Cmp 13 28; Cmp 13
   20; Cmp 29 44; Cmp 14 29; Cmp 14 21; Cmp 30 45; Cmp 15 30; Cmp 4 15; Cmp 1 4; Cmp 8 30; Cmp 8 15;
   Cmp 2 8; Cmp 2 4; Cmp 31 46; Cmp 16 31; Cmp 5 16; Cmp 9 31; Cmp 9 16; Cmp 32 47; Cmp 17 32; Cmp 6
   17; Cmp 10 32; Cmp 10 17; Cmp 33 48; Cmp 3 33; Cmp 3 5; Cmp 5 9; Cmp 18 48; Cmp 11 48; Cmp 18 33;
   Cmp 7 18; Cmp 11 33; Cmp 11 18; Cmp 26 48; Cmp 34 49; Cmp 19 34; Cmp 19 30; Cmp 35 50; Cmp 20 35;
   Cmp 20 31; Cmp 36 51; Cmp 21 36; Cmp 21 32; Cmp 37 52; Cmp 22 37; Cmp 22 33; Cmp 18 22; Cmp 26
   37; Cmp 26 33; Cmp 38 53; Cmp 23 38; Cmp 23 45; Cmp 12 23; Cmp 12 19; Cmp 12 15; Cmp 6 12; Cmp 6
   8; Cmp 3 6; Cmp 3 4; Cmp 5 8; Cmp 5 6; Cmp 10 15; Cmp 10 12; Cmp 23 30; Cmp 19 23; Cmp 34 38; Cmp
   39 54; Cmp 24 39; Cmp 24 46; Cmp 13 24; Cmp 13 20; Cmp 13 16; Cmp 7 13; Cmp 7 9; Cmp 7 10; Cmp 7
   8; Cmp 9 12; Cmp 9 10; Cmp 11 16; Cmp 11 15; Cmp 24 31; Cmp 20 24; Cmp 18 20; Cmp 16 18; Cmp 22
   24; Cmp 20 22; Cmp 35 39; Cmp 40 55; Cmp 25 40; Cmp 25 47; Cmp 14 25; Cmp 14 21; Cmp 14 17; Cmp
   14 19; Cmp 13 14; Cmp 11 13; Cmp 11 12; Cmp 14 15; Cmp 13 14; Cmp 17 23; Cmp 17 19; Cmp 16 17;
   Cmp 15 16; Cmp 18 19; Cmp 17 18; Cmp 25 32; Cmp 21 25; Cmp 36 40; Cmp 41 52; Cmp 41 48; Cmp 37
   41; Cmp 42 57; Cmp 27 42; Cmp 27 49; Cmp 27 45; Cmp 27 34; Cmp 27 30; Cmp 21 27; Cmp 21 23; Cmp
   20 21; Cmp 19 20; Cmp 22 23; Cmp 21 22; Cmp 24 27; Cmp 25 30; Cmp 38 45; Cmp 34 38; Cmp 42 53;
   Cmp 42 49; Cmp 42 45; Cmp 43 58; Cmp 28 43; Cmp 28 50; Cmp 28 46; Cmp 28 35; Cmp 28 31; Cmp 26
   28; Cmp 25 26; Cmp 24 25; Cmp 23 24; Cmp 26 27; Cmp 25 26; Cmp 28 30; Cmp 31 33; Cmp 39 46; Cmp
   35 39; Cmp 35 37; Cmp 33 35; Cmp 39 41; Cmp 43 54; Cmp 43 50; Cmp 43 46; Cmp 43 48; Cmp 41 43;
   Cmp 44 59; Cmp 29 44; Cmp 29 51; Cmp 29 47; Cmp 29 36; Cmp 29 32; Cmp 29 34; Cmp 29 31; Cmp 28
   29; Cmp 27 28; Cmp 30 31; Cmp 29 30; Cmp 32 38; Cmp 32 34; Cmp 32 33; Cmp 31 32; Cmp 34 35; Cmp
   33 34; Cmp 38 39; Cmp 40 47; Cmp 36 40; Cmp 36 42; Cmp 36 37; Cmp 36 38; Cmp 35 36; Cmp 37 39;
   Cmp 37 38; Cmp 40 45; Cmp 40 42; Cmp 40 41; Cmp 39 40; Cmp 42 43; Cmp 41 42; Cmp 44 55; Cmp 44
   51; Cmp 44 47; Cmp 44 49; Cmp 44 48; Cmp 46 52; Cmp 45 46; Cmp 44 45; Cmp 43 44; Cmp 46 48; Cmp
   45 46; Cmp 47 53; Cmp 47 49; Cmp 51 57; Cmp 51 53; Cmp 54 56; Cmp 50 54; Cmp 50 52; Cmp 47 50;
   Cmp 47 48; Cmp 49 52; Cmp 49 50; Cmp 51 54; Cmp 51 52; Cmp 53 56; Cmp 53 54; Cmp 55 58; Cmp 55
   57; Cmp 55 56].
Lemma check60 : check 60%nat 1 swaps60 plan60 = true.
Proof. vm_cast_no_check (eq_refl true). Qed.
Lemma sorts60 : sorts01 60%nat (map pn swaps60).
Proof. eapply check_sound; [vm_compute; reflexivity|exact check60]. Qed.

Definition plan61 : list op :=
  [Cmp 24 26; Cmp 33 40; Cmp 52 56; Cmp 39 41; Cmp 3 10; Cmp 31 32; Cmp 5 8; Cmp 18 25; Cmp 34 44; Rep
   [34; 44] [(34,44)] [34; 44] 64; Cmp 16 17; Cmp 47 60; Cmp 54 55; Rep [47; 60] [(47,60)] [47; 60]
   66; Rep [54; 55] [(54,55)] [54; 55] 68; Cmp 19 29; Rep [19; 29] [(19,29)] [19; 29] 70; Cmp 9 11;
   Cmp 4 14; Rep [4; 14] [(4,14)] [4; 14] 72; Cmp 50 51; Cmp 22 27; Rep [18; 25] [(18,25)] [18; 25]
   74; Rep [22; 27] [(22,27)] [22; 27] 76; Cmp 45 58; Rep [45; 58] [(45,58)] [45; 58] 78; Rep [50;
   51] [(50,51)] [50; 51] 80; Cmp 21 28; Rep [21; 28] [(21,28)] [21; 28] 82; Rep [24; 26] [(24,26)]
   [24; 26] 84; Cmp 49 53; Cmp 37 42; Rep [33; 40] [(33,40)] [33; 40] 86; Rep [37; 42] [(37,42)]
   [37; 42] 88; Cmp 1 2; Rep [1; 2] [(1,2)] [1; 2] 90; Rep [5; 8] [(5,8)] [5; 8] 92; Cmp 35 38; Rep
   [31; 32] [(31,32)] [31; 32] 94; Rep [35; 38] [(35,38)] [35; 38] 96; Cmp 36 43; Rep [36; 43]
   [(36,43)] [36; 43] 98; Rep [39; 41] [(39,41)] [39; 41] 100; Cmp 20 23; Rep [16; 17] [(16,17)]
   [16; 17] 102; Rep [20; 23] [(20,23)] [20; 23] 104; Cmp 46 57; Rep [46; 57] [(46,57)] [46; 57]
   106; Rep [52; 56] [(52,56)] [52; 56] 108; Cmp 48 59; Rep [48; 59] [(48,59)] [48; 59] 110; Rep
   [49; 53] [(49,53)] [49; 53] 112; Cmp 7 12; Rep [3; 10] [(3,10)] [3; 10] 114; Rep [7; 12] [(7,12)]
   [7; 12] 116; Cmp 6 13; Rep [6; 13] [(6,13)] [6; 13] 118; Rep [9; 11] [(9,11)] [9; 11] 120; Cmp 15
   29; Cmp 30 44; Cmp 45 50; Cmp 51 58; Cmp 0 14; Cmp 32 38; Cmp 31 35; Cmp 18 22; Cmp 25 27; Rep
   [15; 19; 29] [(15,29); (19,29)] [29; 15; 19] 122; Rep [18; 25; 22; 27] [(18,25); (18,22);
   (25,27); (22,27)] [25; 22; 18; 27] 125; Cmp 41 43; Cmp 36 39; Rep [31; 32; 35; 38] [(31,32);
   (31,35); (32,38); (35,38)] [32; 35; 31; 38] 129; Rep [39; 41; 36; 43] [(36,39); (36,41); (39,43);
   (41,43)] [39; 41; 43; 36] 133; Cmp 3 7; Cmp 10 12; Rep [0; 4; 14] [(0,14); (4,14)] [14; 0; 4]
   137; Rep [3; 10; 7; 12] [(3,10); (3,7); (10,12); (7,12)] [10; 7; 3; 12] 140; Cmp 48 49; Cmp 53
   59; Rep [48; 59; 49; 53] [(48,49); (48,53); (49,59); (53,59)] [49; 59; 48; 53] 144; Rep [45; 58;
   50; 51] [(45,50); (45,51); (50,58); (51,58)] [50; 58; 45; 51] 148; Cmp 1 5; Cmp 2 8; Cmp 56 57;
   Cmp 46 52; Rep [52; 56; 46; 57] [(46,52); (46,56); (52,57); (56,57)] [52; 56; 57; 46] 152; Cmp 47
   54; Cmp 55 60; Rep [47; 60; 54; 55] [(47,54); (47,55); (54,60); (55,60)] [54; 60; 47; 55] 156;
   Cmp 21 24; Cmp 26 28; Cmp 17 23; Cmp 16 20; Rep [16; 17; 20; 23] [(16,17); (16,20); (17,23);
   (20,23)] [17; 20; 16; 23] 160; Rep [21; 28; 24; 26] [(21,24); (21,26); (24,28); (26,28)] [24; 28;
   21; 26] 164; Cmp 11 13; Cmp 6 9; Rep [1; 2; 5; 8] [(1,2); (1,5); (2,8); (5,8)] [2; 5; 1; 8] 168;
   Rep [9; 11; 6; 13] [(6,9); (6,11); (9,13); (11,13)] [9; 11; 13; 6] 172; Cmp 40 42; Cmp 33 37; Rep
   [30; 34; 44] [(30,44); (34,44)] [44; 30; 34] 176; Rep [33; 40; 37; 42] [(33,40); (33,37);
   (40,42); (37,42)] [40; 37; 33; 42] 179; Cmp 4 10; Cmp 0 7; Cmp 12 14; Cmp 31 36; Cmp 32 39; Cmp
   35 41; Cmp 38 43; Rep [31; 32; 35; 38; 39; 41; 36; 43] [(31,32); (31,35); (31,36); (32,38);
   (32,39); (35,38); (35,41); (36,39); (36,41); (38,43); (39,43); (41,43)] [32; 41; 35; 43; 31; 38;
   39; 36] 183; Cmp 19 25; Cmp 15 22; Cmp 27 29; Cmp 34 40; Cmp 30 37; Cmp 42 44; Rep [30; 34; 44;
   33; 40; 37; 42] [(30,37); (30,42); (34,40); (34,42); (33,40); (33,37); (40,44); (37,44); (42,44)]
   [40; 37; 30; 44; 34; 42; 33] 191; Cmp 2 9; Cmp 1 6; Cmp 5 11; Cmp 8 13; Rep [0; 4; 14; 3; 10; 7;
   12] [(0,7); (0,12); (4,10); (4,12); (3,10); (3,7); (10,14); (7,14); (12,14)] [10; 7; 0; 14; 4;
   12; 3] 198; Rep [1; 2; 5; 8; 9; 11; 6; 13] [(1,2); (1,5); (1,6); (2,8); (2,9); (5,8); (5,11);
   (6,9); (6,11); (8,13); (9,13); (11,13)] [2; 11; 5; 13; 1; 8; 9; 6] 205; Cmp 59 60; Cmp 47 48; Cmp
   20 26; Cmp 16 21; Cmp 17 24; Cmp 23 28; Rep [15; 19; 29; 18; 25; 22; 27] [(15,22); (15,27);
   (19,25); (19,27); (18,25); (18,22); (25,29); (22,29); (27,29)] [25; 22; 15; 29; 19; 27; 18] 213;
   Rep [16; 17; 20; 23; 21; 28; 24; 26] [(16,17); (16,20); (16,21); (17,23); (17,24); (20,23);
   (20,26); (21,24); (21,26); (23,28); (24,28); (26,28)] [17; 26; 20; 28; 16; 23; 21; 24] 220; Cmp
   45 46; Cmp 57 58; Cmp 39 42; Cmp 30 36; Cmp 32 34; Cmp 31 32; Cmp 33 35; Cmp 30 33; Cmp 30 31;
   Cmp 32 33; Cmp 31 32; Cmp 35 39; Cmp 33 35; Cmp 37 41; Cmp 34 37; Cmp 37 39; Cmp 38 40; Cmp 36
   38; Cmp 34 36; Cmp 33 34; Cmp 32 33; Cmp 35 36; Cmp 34 35; Cmp 40 41; Cmp 43 44; Cmp 42 43; Cmp
   40 42; Cmp 38 40; Cmp 37 38; Cmp 36 37; Cmp 35 36; Cmp 39 40; Cmp 38 39; Cmp 37 38; Cmp 41 43;
   Cmp 41 42; Cmp 40 41; Cmp 8 10; Cmp 0 6; Cmp 2 4; Cmp 1 2; Cmp 3 5; Cmp 0 3; Cmp 0 1; Cmp 2 3;
   Cmp 1 2; Cmp 6 8; Cmp 7 11; Cmp 4 7; Cmp 4 6; Cmp 9 12; Cmp 5 9; Cmp 3 5; Cmp 3 4; Cmp 2 3; Cmp 5
   6; Cmp 4 5; Cmp 7 9; Cmp 10 11; Cmp 13 14; Cmp 12 13; Cmp 10 12; Cmp 8 10; Cmp 7 8; Cmp 6 7; Cmp
   5 6; Cmp 9 10; Cmp 8 9; Cmp 7 8; Cmp 11 13; Cmp 11 12; Cmp 10 11; Rep [1; 2; 5; 8; 9; 11; 6; 13;
   0; 4; 14; 3; 10; 7; 12] [(0,1); (1,2); (2,3); (3,4); (4,5); (5,6); (6,7); (7,8); (8,9); (9,10);
   (10,11); (11,12); (12,13); (13,14)] [7; 11; 3; 13; 9; 5; 1; 14; 12; 10; 8; 6; 4; 2; 0] 228; Rep
   [31; 32; 35; 38; 39; 41; 36; 43; 30; 34; 44; 33; 40; 37; 42] [(30,31); (31,32); (32,33); (33,34);
   (34,35); (35,36); (36,37); (37,38); (38,39); (39,40); (40,41); (41,42); (42,43); (43,44)] [37;
   41; 33; 43; 39; 35; 31; 44; 42; 40; 38; 36; 34; 32; 30] 243; Cmp 9 39; Cmp 0 30; Cmp 1 31; Cmp 2
   32; Cmp 3 33; Cmp 7 37; Cmp 8 38; Cmp 10 40; Cmp 11 41; Cmp 15 21; Cmp 17 19; Cmp 16 17; Cmp 18
   20; Cmp 15 18; Cmp 15 16; Cmp 17 18; Cmp 16 17; Cmp 22 26; Cmp 19 22; Cmp 23 25; Cmp 21 23; Cmp
   19 21; Cmp 24 27; Cmp 20 24; Cmp 18 20; Cmp 18 19; Cmp 17 18; Cmp 20 21; Cmp 19 20; Cmp 22 24;
   Cmp 25 26; Cmp 28 29; Cmp 27 28; Cmp 25 27; Cmp 23 25; Cmp 22 23; Cmp 21 22; Cmp 20 21; Cmp 24
   25; Cmp 23 24; Cmp 22 23; Cmp 26 28; Cmp 26 27; Cmp 25 26; Rep [15; 19; 29; 18; 25; 22; 27; 16;
   17; 20; 23; 21; 28; 24; 26] [(15,16); (16,17); (17,18); (18,19); (19,20); (20,21); (21,22);
   (22,23); (23,24); (24,25); (25,26); (26,27); (27,28); (28,29)] [22; 26; 18; 28; 24; 20; 16; 29;
   27; 25; 23; 21; 19; 17; 15] 258; Cmp 55 56; Cmp 45 47; Cmp 46 48; Cmp 46 47; Cmp 49 50; Cmp 49
   55; Cmp 50 56; Cmp 51 53; Cmp 52 54; Cmp 51 52; Cmp 49 51; Cmp 46 49; Cmp 47 51; Cmp 47 49; Cmp
   50 52; Cmp 53 54; Cmp 53 55; Cmp 50 53; Cmp 52 55; Cmp 54 56; Cmp 57 59; Cmp 48 57; Cmp 48 51;
   Cmp 48 50; Cmp 48 49; Cmp 51 53; Cmp 50 51; Cmp 58 60; Cmp 58 59; Cmp 54 58; Cmp 54 57; Cmp 52
   54; Cmp 52 53; Cmp 51 52; Cmp 55 57; Cmp 54 55; Cmp 53 54; Cmp 56 59; Cmp 56 58; Cmp 56 57; Rep
   [48; 59; 49; 53; 47; 60; 54; 55; 45; 58; 50; 51; 52; 56; 46; 57] [(45,46); (46,47); (47,48);
   (48,49); (49,50); (50,51); (51,52); (52,53); (53,54); (54,55); (55,56); (56,57); (57,58);
   (58,59); (59,60)] [53; 57; 48; 59; 55; 50; 46; 60; 58; 56; 54; 51; 49; 47; 45; 52] 273; Cmp 25
   55; Cmp 15 45; Cmp 16 46; Cmp 17 47; Cmp 18 48; Cmp 23 53; Cmp 24 54; Cmp 26 60; Cmp 4 49; Cmp 0
   15; Cmp 1 16; Cmp 2 17; Cmp 3 18; Cmp 5 50; Cmp 6 51; Cmp 7 52; Cmp 8 23; Cmp 9 24; Cmp 10 25;
   Cmp 11 26; Cmp 12 57; Cmp 13 58; Cmp 14 59; Cmp 19 34; Cmp 4 19; Cmp 20 35; Cmp 5 20; Cmp 21 36;
   Cmp 6 21; Cmp 22 37; Cmp 27 42; Cmp 12 27; Cmp 12 19; Cmp 28 43; Cmp 13 28; Cmp 13 20; Cmp 29 44;
   Cmp 14 29; Cmp 14 21; Cmp 30 45; Cmp 15 30; Cmp 4 15; Cmp 1 4; Cmp 8 30; Cmp 8 15; Cmp 2 8; Cmp 2
   4; Cmp 31 46; Cmp 16 31; Cmp 5 16; Cmp 5 8; Cmp 9 31; Cmp 9 16; Cmp 3 9; Cmp 32 47; Cmp 17 32;
   Cmp 6 17; Cmp 10 32; Cmp 10 17; Cmp 33 48; Cmp 18 33; Cmp 34 49; Cmp 19 34; Cmp 19 30; Cmp 35 50;
   Cmp 20 35; Cmp 20 31; Cmp 36 51; Cmp 21 36; Cmp 21 32; Cmp 37 56; Cmp 11 37; Cmp 11 33; Cmp 38
   53; Cmp 23 38; Cmp 23 45; Cmp 12 23; Cmp 12 19; Cmp 12 15; Cmp 6 12; Cmp 6 8; Cmp 3 6; Cmp 3 5;
   Cmp 3 4; Cmp 6 8; Cmp 9 12; Cmp 10 15; Cmp 23 30; Cmp 19 23; Cmp 34 38; Cmp 39 54; Cmp 24 39; Cmp
   24 46; Cmp 13 24; Cmp 13 20; Cmp 13 16; Cmp 24 31; Cmp 20 24; Cmp 35 39; Cmp 40 55; Cmp 25 40;
   Cmp 25 47; Cmp 14 25; Cmp 14 21; Cmp 14 17; Cmp 14 19; Cmp 14 15; Cmp 17 23; Cmp 25 32; Cmp 21
   25; Cmp 36 40; Cmp 41 60; Cmp 26 41; Cmp 41 56; Cmp 42 57; Cmp 27 42; Cmp 27 49; Cmp 27 45; Cmp
   27 34; Cmp 27 30; Cmp 21 27; Cmp 25 30; Cmp 38 45; Cmp 34 38; Cmp 42 53; Cmp 42 49; Cmp 42 45;
   Cmp 43 58; Cmp 28 43; Cmp 28 50; Cmp 28 46; Cmp 28 35; Cmp 28 31; Cmp 39 46; Cmp 35 39; Cmp 43
   54; Cmp 43 50; Cmp 43 46; Cmp 44 59; Cmp 29 44; Cmp 29 51; Cmp 29 47; Cmp 29 36; Cmp 29 32; Cmp
   29 34; Cmp 29 30; Cmp 32 38; Cmp 40 47; Cmp 36 40; Cmp 36 42; Cmp 40 45; Cmp 44 55; Cmp 44 51;
   Cmp 44 47; Cmp 44 49; Cmp 47 53; Cmp 48 52; Cmp 22 48; Cmp 7 22; Cmp 7 18; Cmp 7 13; Cmp 7 10;
   Cmp 7 12; Cmp 7 9; Cmp 7 8; Cmp 10 12; Cmp 11 18; Cmp 11 16; Cmp 11 13; Cmp 11 14; Cmp 11 12; Cmp
   13 15; Cmp 13 14; Cmp 16 19; Cmp 26 52; Cmp 37 48; Cmp 33 37; Cmp 22 33; Cmp 18 22; Cmp 18 20;
   Cmp 17 18; Cmp 16 17; Cmp 15 16; Cmp 18 19; Cmp 17 18; Cmp 20 21; Cmp 22 24; Cmp 22 23; Cmp 20
   22; Cmp 19 20; Cmp 21 23; Cmp 21 22; Cmp 24 27; Cmp 26 37; Cmp 26 33; Cmp 26 28; Cmp 25 26; Cmp
   24 25; Cmp 23 24; Cmp 26 27; Cmp 25 26; Cmp 31 33; Cmp 28 31; Cmp 28 29; Cmp 27 28; Cmp 30 31;
   Cmp 29 30; Cmp 33 34; Cmp 41 52; Cmp 41 48; Cmp 37 41; Cmp 35 37; Cmp 32 35; Cmp 32 33; Cmp 31
   32; Cmp 34 35; Cmp 33 34; Cmp 37 38; Cmp 39 41; Cmp 36 39; Cmp 36 37; Cmp 35 36; Cmp 38 39; Cmp
   37 38; Cmp 40 41; Cmp 43 48; Cmp 42 43; Cmp 40 42; Cmp 39 40; Cmp 41 43; Cmp 41 42; Cmp 45 48;
   Cmp 46 52; Cmp 44 46; Cmp 44 45; Cmp 43 44; Cmp 46 48; Cmp 45 46; Cmp 49 52; Cmp 50 56; Cmp 47
   50; Cmp 47 52; Cmp 47 49; Cmp 47 48; Cmp 50 52; Cmp 51 57; Cmp 58 60; Cmp 54 58; Cmp 51 54; Cmp
   51 56; Cmp 51 53; Cmp 51 52; Cmp 53 56; Cmp 54 56; Cmp 57 58; Cmp 55 57; Cmp 55 56; Cmp 57 60;
   Cmp 57 58; Cmp 59 60].
Lemma check61 : check 61%nat 1 swaps61 plan61 = true.
Proof. vm_cast_no_check (eq_refl true). Qed.
Lemma sorts61 : sorts01 61%nat (map pn swaps61).
Proof. eapply check_sound; [vm_compute; reflexivity|exact check61]. Qed.

Definition plan62 : list op :=
  [Cmp 1 2; Cmp 3 10; Cmp 4 14; Rep [4; 14] [(4,14)] [4; 14] 65; Cmp 5 8; Rep [1; 2] [(1,2)] [1; 2]
   67; Rep [5; 8] [(5,8)] [5; 8] 69; Cmp 6 13; Cmp 7 12; Rep [3; 10] [(3,10)] [3; 10] 71; Rep [7;
   12] [(7,12)] [7; 12] 73; Cmp 9 11; Rep [6; 13] [(6,13)] [6; 13] 75; Rep [9; 11] [(9,11)] [9; 11]
   77; Cmp 15 28; Cmp 16 27; Cmp 17 30; Cmp 18 29; Cmp 19 23; Rep [18; 29] [(18,29)] [18; 29] 79;
   Rep [19; 23] [(19,23)] [19; 23] 81; Cmp 20 21; Rep [15; 28] [(15,28)] [15; 28] 83; Rep [20; 21]
   [(20,21)] [20; 21] 85; Cmp 22 26; Rep [16; 27] [(16,27)] [16; 27] 87; Rep [22; 26] [(22,26)] [22;
   26] 89; Cmp 24 25; Rep [17; 30] [(17,30)] [17; 30] 91; Rep [24; 25] [(24,25)] [24; 25] 93; Cmp 32
   33; Cmp 34 41; Cmp 35 45; Rep [35; 45] [(35,45)] [35; 45] 95; Cmp 36 39; Rep [32; 33] [(32,33)]
   [32; 33] 97; Rep [36; 39] [(36,39)] [36; 39] 99; Cmp 37 44; Cmp 38 43; Rep [34; 41] [(34,41)]
   [34; 41] 101; Rep [38; 43] [(38,43)] [38; 43] 103; Cmp 40 42; Rep [37; 44] [(37,44)] [37; 44]
   105; Rep [40; 42] [(40,42)] [40; 42] 107; Cmp 46 59; Cmp 47 58; Cmp 48 61; Cmp 49 60; Cmp 50 54;
   Rep [49; 60] [(49,60)] [49; 60] 109; Rep [50; 54] [(50,54)] [50; 54] 111; Cmp 51 52; Rep [46; 59]
   [(46,59)] [46; 59] 113; Rep [51; 52] [(51,52)] [51; 52] 115; Cmp 53 57; Rep [47; 58] [(47,58)]
   [47; 58] 117; Rep [53; 57] [(53,57)] [53; 57] 119; Cmp 55 56; Rep [48; 61] [(48,61)] [48; 61]
   121; Rep [55; 56] [(55,56)] [55; 56] 123; Cmp 0 14; Cmp 31 45; Cmp 1 5; Cmp 2 8; Cmp 3 7; Cmp 10
   12; Rep [0; 4; 14] [(0,14); (4,14)] [14; 0; 4] 125; Rep [3; 10; 7; 12] [(3,10); (3,7); (10,12);
   (7,12)] [10; 7; 3; 12] 128; Cmp 6 9; Cmp 11 13; Rep [1; 2; 5; 8] [(1,2); (1,5); (2,8); (5,8)] [2;
   5; 1; 8] 132; Rep [6; 13; 9; 11] [(6,9); (6,11); (9,13); (11,13)] [9; 13; 6; 11] 136; Cmp 15 20;
   Cmp 21 28; Cmp 16 22; Cmp 26 27; Rep [15; 28; 20; 21] [(15,20); (15,21); (20,28); (21,28)] [20;
   28; 15; 21] 140; Rep [16; 27; 22; 26] [(16,22); (16,26); (22,27); (26,27)] [22; 27; 16; 26] 144;
   Cmp 17 24; Cmp 25 30; Rep [17; 30; 24; 25] [(17,24); (17,25); (24,30); (25,30)] [24; 30; 17; 25]
   148; Cmp 18 19; Cmp 23 29; Rep [18; 29; 19; 23] [(18,19); (18,23); (19,29); (23,29)] [19; 29; 18;
   23] 152; Cmp 32 36; Cmp 33 39; Cmp 34 38; Cmp 41 43; Rep [31; 35; 45] [(31,45); (35,45)] [45; 31;
   35] 156; Rep [34; 41; 38; 43] [(34,41); (34,38); (41,43); (38,43)] [41; 38; 34; 43] 159; Cmp 37
   40; Cmp 42 44; Rep [32; 33; 36; 39] [(32,33); (32,36); (33,39); (36,39)] [33; 36; 32; 39] 163;
   Rep [37; 44; 40; 42] [(37,40); (37,42); (40,44); (42,44)] [40; 44; 37; 42] 167; Cmp 46 51; Cmp 52
   59; Cmp 47 53; Cmp 57 58; Rep [46; 59; 51; 52] [(46,51); (46,52); (51,59); (52,59)] [51; 59; 46;
   52] 171; Rep [47; 58; 53; 57] [(47,53); (47,57); (53,58); (57,58)] [53; 58; 47; 57] 175; Cmp 48
   55; Cmp 56 61; Rep [48; 61; 55; 56] [(48,55); (48,56); (55,61); (56,61)] [55; 61; 48; 56] 179;
   Cmp 49 50; Cmp 54 60; Rep [49; 60; 50; 54] [(49,50); (49,54); (50,60); (54,60)] [50; 60; 49; 54]
   183; Cmp 0 7; Cmp 4 10; Cmp 12 14; Cmp 31 38; Cmp 35 41; Cmp 43 45; Cmp 1 6; Cmp 2 9; Cmp 5 11;
   Cmp 8 13; Rep [0; 4; 14; 3; 10; 7; 12] [(0,7); (0,12); (4,10); (4,12); (3,10); (3,7); (10,14);
   (7,14); (12,14)] [10; 7; 0; 14; 4; 12; 3] 187; Rep [1; 2; 5; 8; 6; 13; 9; 11] [(1,2); (1,5);
   (1,6); (2,8); (2,9); (5,8); (5,11); (6,9); (6,11); (8,13); (9,13); (11,13)] [2; 11; 5; 13; 1; 8;
   6; 9] 194; Cmp 15 16; Cmp 27 28; Cmp 17 18; Cmp 29 30; Cmp 32 37; Cmp 33 40; Cmp 36 42; Cmp 39
   44; Rep [31; 35; 45; 34; 41; 38; 43] [(31,38); (31,43); (35,41); (35,43); (34,41); (34,38);
   (41,45); (38,45); (43,45)] [41; 38; 31; 45; 35; 43; 34] 202; Rep [32; 33; 36; 39; 37; 44; 40; 42]
   [(32,33); (32,36); (32,37); (33,39); (33,40); (36,39); (36,42); (37,40); (37,42); (39,44);
   (40,44); (42,44)] [33; 42; 36; 44; 32; 39; 37; 40] 209; Cmp 46 47; Cmp 58 59; Cmp 48 49; Cmp 60
   61; Cmp 0 6; Cmp 2 4; Cmp 1 2; Cmp 3 5; Cmp 0 3; Cmp 0 1; Cmp 2 3; Cmp 1 2; Cmp 7 11; Cmp 4 7;
   Cmp 8 10; Cmp 6 8; Cmp 4 6; Cmp 9 12; Cmp 5 9; Cmp 3 5; Cmp 3 4; Cmp 2 3; Cmp 5 6; Cmp 4 5; Cmp 7
   9; Cmp 10 11; Cmp 13 14; Cmp 12 13; Cmp 10 12; Cmp 8 10; Cmp 7 8; Cmp 6 7; Cmp 5 6; Cmp 9 10; Cmp
   8 9; Cmp 7 8; Cmp 11 13; Cmp 11 12; Cmp 10 11; Cmp 31 37; Cmp 33 35; Cmp 32 33; Cmp 34 36; Cmp 31
   34; Cmp 31 32; Cmp 33 34; Cmp 32 33; Cmp 38 42; Cmp 35 38; Cmp 39 41; Cmp 37 39; Cmp 35 37; Cmp
   40 43; Cmp 36 40; Cmp 34 36; Cmp 34 35; Cmp 33 34; Cmp 36 37; Cmp 35 36; Cmp 38 40; Cmp 41 42;
   Cmp 44 45; Cmp 43 44; Cmp 41 43; Cmp 39 41; Cmp 38 39; Cmp 37 38; Cmp 36 37; Cmp 40 41; Cmp 39
   40; Cmp 38 39; Cmp 42 44; Cmp 42 43; Cmp 41 42; Rep [0; 4; 14; 3; 10; 7; 12; 1; 2; 5; 8; 6; 13;
   9; 11] [(0,1); (1,2); (2,3); (3,4); (4,5); (5,6); (6,7); (7,8); (8,9); (9,10); (10,11); (11,12);
   (12,13); (13,14)] [7; 11; 3; 13; 9; 5; 1; 14; 12; 10; 8; 6; 4; 2; 0] 217; Rep [31; 35; 45; 34;
   41; 38; 43; 32; 33; 36; 39; 37; 44; 40; 42] [(31,32); (32,33); (33,34); (34,35); (35,36);
   (36,37); (37,38); (38,39); (39,40); (40,41); (41,42); (42,43); (43,44); (44,45)] [38; 42; 34; 44;
   40; 36; 32; 45; 43; 41; 39; 37; 35; 33; 31] 232; Cmp 0 31; Cmp 1 32; Cmp 2 33; Cmp 3 34; Cmp 7
   38; Cmp 8 39; Cmp 9 40; Cmp 10 41; Cmp 15 17; Cmp 16 18; Cmp 16 17; Cmp 19 20; Cmp 21 23; Cmp 22
   24; Cmp 21 22; Cmp 23 24; Cmp 25 26; Cmp 19 25; Cmp 19 21; Cmp 16 19; Cmp 17 21; Cmp 17 19; Cmp
   20 26; Cmp 20 22; Cmp 23 25; Cmp 20 23; Cmp 22 25; Cmp 24 26; Cmp 27 29; Cmp 18 27; Cmp 18 21;
   Cmp 18 20; Cmp 18 19; Cmp 21 23; Cmp 20 21; Cmp 28 30; Cmp 28 29; Cmp 24 28; Cmp 24 27; Cmp 22
   24; Cmp 22 23; Cmp 21 22; Cmp 25 27; Cmp 24 25; Cmp 23 24; Cmp 26 29; Cmp 26 28; Cmp 26 27; Rep
   [15; 28; 20; 21; 16; 27; 22; 26; 17; 30; 24; 25; 18; 29; 19; 23] [(15,16); (16,17); (17,18);
   (18,19); (19,20); (20,21); (21,22); (22,23); (23,24); (24,25); (25,26); (26,27); (27,28);
   (28,29); (29,30)] [22; 27; 18; 29; 24; 20; 16; 30; 28; 26; 23; 21; 19; 17; 15; 25] 247; Cmp 46
   48; Cmp 47 49; Cmp 47 48; Cmp 50 51; Cmp 52 54; Cmp 53 55; Cmp 52 53; Cmp 54 55; Cmp 56 57; Cmp
   50 56; Cmp 50 52; Cmp 47 50; Cmp 48 52; Cmp 48 50; Cmp 51 57; Cmp 51 53; Cmp 54 56; Cmp 51 54;
   Cmp 53 56; Cmp 55 57; Cmp 58 60; Cmp 49 58; Cmp 49 52; Cmp 49 51; Cmp 49 50; Cmp 52 54; Cmp 51
   52; Cmp 59 61; Cmp 59 60; Cmp 55 59; Cmp 55 58; Cmp 53 55; Cmp 53 54; Cmp 52 53; Cmp 56 58; Cmp
   55 56; Cmp 54 55; Cmp 57 60; Cmp 57 59; Cmp 57 58; Rep [46; 59; 51; 52; 47; 58; 53; 57; 48; 61;
   55; 56; 49; 60; 50; 54] [(46,47); (47,48); (48,49); (49,50); (50,51); (51,52); (52,53); (53,54);
   (54,55); (55,56); (56,57); (57,58); (58,59); (59,60); (60,61)] [53; 58; 49; 60; 55; 51; 47; 61;
   59; 57; 54; 52; 50; 48; 46; 56] 263; Cmp 15 46; Cmp 16 47; Cmp 17 48; Cmp 18 49; Cmp 22 53; Cmp
   23 54; Cmp 24 55; Cmp 25 56; Cmp 26 57; Cmp 0 15; Cmp 1 16; Cmp 2 17; Cmp 3 18; Cmp 4 50; Cmp 5
   51; Cmp 6 52; Cmp 7 49; Cmp 7 18; Cmp 8 23; Cmp 9 24; Cmp 10 25; Cmp 11 61; Cmp 12 58; Cmp 13 59;
   Cmp 14 60; Cmp 19 35; Cmp 4 19; Cmp 20 36; Cmp 5 20; Cmp 21 37; Cmp 6 21; Cmp 22 34; Cmp 27 43;
   Cmp 12 27; Cmp 12 19; Cmp 28 44; Cmp 13 28; Cmp 13 20; Cmp 29 45; Cmp 14 29; Cmp 14 21; Cmp 30
   42; Cmp 11 30; Cmp 11 22; Cmp 7 11; Cmp 31 46; Cmp 15 31; Cmp 4 15; Cmp 1 4; Cmp 8 31; Cmp 8 15;
   Cmp 2 8; Cmp 2 4; Cmp 32 47; Cmp 16 32; Cmp 5 16; Cmp 5 8; Cmp 9 32; Cmp 9 16; Cmp 3 9; Cmp 3 8;
   Cmp 33 48; Cmp 17 33; Cmp 6 17; Cmp 10 33; Cmp 10 17; Cmp 34 53; Cmp 22 34; Cmp 35 50; Cmp 19 35;
   Cmp 19 31; Cmp 36 51; Cmp 20 36; Cmp 20 32; Cmp 37 52; Cmp 21 37; Cmp 21 33; Cmp 38 57; Cmp 26
   38; Cmp 18 26; Cmp 11 18; Cmp 38 49; Cmp 26 38; Cmp 22 26; Cmp 18 22; Cmp 39 54; Cmp 23 39; Cmp
   23 46; Cmp 12 23; Cmp 12 19; Cmp 12 15; Cmp 6 12; Cmp 3 6; Cmp 3 5; Cmp 3 4; Cmp 6 8; Cmp 10 15;
   Cmp 10 12; Cmp 23 31; Cmp 19 23; Cmp 35 39; Cmp 40 55; Cmp 24 40; Cmp 24 47; Cmp 13 24; Cmp 13
   20; Cmp 13 16; Cmp 7 13; Cmp 7 9; Cmp 7 10; Cmp 7 8; Cmp 9 12; Cmp 9 10; Cmp 11 16; Cmp 11 13;
   Cmp 24 32; Cmp 20 24; Cmp 18 20; Cmp 16 18; Cmp 22 24; Cmp 20 22; Cmp 36 40; Cmp 41 56; Cmp 25
   41; Cmp 25 48; Cmp 14 25; Cmp 14 21; Cmp 14 17; Cmp 14 19; Cmp 14 15; Cmp 11 14; Cmp 11 12; Cmp
   13 15; Cmp 13 14; Cmp 17 23; Cmp 17 19; Cmp 16 17; Cmp 15 16; Cmp 18 19; Cmp 17 18; Cmp 25 33;
   Cmp 21 25; Cmp 37 41; Cmp 42 61; Cmp 30 42; Cmp 30 53; Cmp 30 34; Cmp 30 38; Cmp 26 30; Cmp 34
   49; Cmp 34 38; Cmp 42 57; Cmp 42 53; Cmp 42 49; Cmp 43 58; Cmp 27 43; Cmp 27 50; Cmp 27 46; Cmp
   27 35; Cmp 27 31; Cmp 21 27; Cmp 21 23; Cmp 20 21; Cmp 19 20; Cmp 22 23; Cmp 21 22; Cmp 25 31;
   Cmp 25 27; Cmp 39 46; Cmp 35 39; Cmp 43 54; Cmp 43 50; Cmp 43 46; Cmp 44 59; Cmp 28 44; Cmp 28
   51; Cmp 28 47; Cmp 28 36; Cmp 28 32; Cmp 26 28; Cmp 24 26; Cmp 24 25; Cmp 23 24; Cmp 26 27; Cmp
   25 26; Cmp 30 32; Cmp 30 31; Cmp 40 47; Cmp 36 40; Cmp 34 36; Cmp 38 40; Cmp 44 55; Cmp 44 51;
   Cmp 44 47; Cmp 42 44; Cmp 40 42; Cmp 45 60; Cmp 29 45; Cmp 29 52; Cmp 29 48; Cmp 29 37; Cmp 29
   33; Cmp 29 35; Cmp 28 29; Cmp 28 30; Cmp 27 28; Cmp 29 31; Cmp 29 30; Cmp 33 39; Cmp 32 33; Cmp
   34 35; Cmp 32 34; Cmp 31 32; Cmp 33 35; Cmp 33 34; Cmp 38 39; Cmp 41 48; Cmp 37 41; Cmp 37 43;
   Cmp 36 37; Cmp 36 38; Cmp 35 36; Cmp 37 39; Cmp 37 38; Cmp 41 46; Cmp 41 43; Cmp 40 41; Cmp 39
   40; Cmp 42 43; Cmp 41 42; Cmp 45 56; Cmp 45 52; Cmp 45 48; Cmp 45 50; Cmp 45 46; Cmp 47 49; Cmp
   44 47; Cmp 44 45; Cmp 43 44; Cmp 46 47; Cmp 45 46; Cmp 48 54; Cmp 48 50; Cmp 51 53; Cmp 49 51;
   Cmp 48 49; Cmp 47 48; Cmp 50 51; Cmp 49 50; Cmp 52 58; Cmp 52 54; Cmp 56 57; Cmp 55 56; Cmp 53
   55; Cmp 52 53; Cmp 51 52; Cmp 54 55; Cmp 53 54; Cmp 59 61; Cmp 58 59; Cmp 56 58; Cmp 55 56; Cmp
   60 61; Cmp 57 60; Cmp 57 59; Cmp 57 58].
Lemma check62 : check 62%nat 1 swaps62 plan62 = true.
Proof. vm_cast_no_check (eq_refl true). Qed.
Lemma sorts62 : sorts01 62%nat (map pn swaps62).
Proof. eapply check_sound; [vm_compute; reflexivity|exact check62]. Qed.

Definition plan63 : list op :=
  [Cmp 1 2; Cmp 3 10; Cmp 4 14; Rep [4; 14] [(4,14)] [4; 14] 66; Cmp 5 8; Rep [1; 2] [(1,2)] [1; 2]
   68; Rep [5; 8] [(5,8)] [5; 8] 70; Cmp 6 13; Cmp 7 12; Rep [3; 10] [(3,10)] [3; 10] 72; Rep [7;
   12] [(7,12)] [7; 12] 74; Cmp 9 11; Rep [6; 13] [(6,13)] [6; 13] 76; Rep [9; 11] [(9,11)] [9; 11]
   78; Cmp 15 28; Cmp 16 27; Cmp 17 30; Cmp 18 29; Cmp 19 23; Rep [18; 29] [(18,29)] [18; 29] 80;
   Rep [19; 23] [(19,23)] [19; 23] 82; Cmp 20 21; Rep [15; 28] [(15,28)] [15; 28] 84; Rep [20; 21]
   [(20,21)] [20; 21] 86; Cmp 22 26; Rep [16; 27] [(16,27)] [16; 27] 88; Rep [22; 26] [(22,26)] [22;
   26] 90; Cmp 24 25; Rep [17; 30] [(17,30)] [17; 30] 92; Rep [24; 25] [(24,25)] [24; 25] 94; Cmp 31
   44; Cmp 32 43; Cmp 33 46; Cmp 34 45; Cmp 35 39; Rep [34; 45] [(34,45)] [34; 45] 96; Rep [35; 39]
   [(35,39)] [35; 39] 98; Cmp 36 37; Rep [31; 44] [(31,44)] [31; 44] 100; Rep [36; 37] [(36,37)]
   [36; 37] 102; Cmp 38 42; Rep [32; 43] [(32,43)] [32; 43] 104; Rep [38; 42] [(38,42)] [38; 42]
   106; Cmp 40 41; Rep [33; 46] [(33,46)] [33; 46] 108; Rep [40; 41] [(40,41)] [40; 41] 110; Cmp 47
   60; Cmp 48 59; Cmp 49 62; Cmp 50 61; Cmp 51 55; Rep [50; 61] [(50,61)] [50; 61] 112; Rep [51; 55]
   [(51,55)] [51; 55] 114; Cmp 52 53; Rep [47; 60] [(47,60)] [47; 60] 116; Rep [52; 53] [(52,53)]
   [52; 53] 118; Cmp 54 58; Rep [48; 59] [(48,59)] [48; 59] 120; Rep [54; 58] [(54,58)] [54; 58]
   122; Cmp 56 57; Rep [49; 62] [(49,62)] [49; 62] 124; Rep [56; 57] [(56,57)] [56; 57] 126; Cmp 0
   14; Cmp 1 5; Cmp 2 8; Cmp 3 7; Cmp 10 12; Rep [0; 4; 14] [(0,14); (4,14)] [14; 0; 4] 128; Rep [3;
   10; 7; 12] [(3,10); (3,7); (10,12); (7,12)] [10; 7; 3; 12] 131; Cmp 6 9; Cmp 11 13; Rep [1; 2; 5;
   8] [(1,2); (1,5); (2,8); (5,8)] [2; 5; 1; 8] 135; Rep [6; 13; 9; 11] [(6,9); (6,11); (9,13);
   (11,13)] [9; 13; 6; 11] 139; Cmp 15 20; Cmp 21 28; Cmp 16 22; Cmp 26 27; Rep [15; 28; 20; 21]
   [(15,20); (15,21); (20,28); (21,28)] [20; 28; 15; 21] 143; Rep [16; 27; 22; 26] [(16,22);
   (16,26); (22,27); (26,27)] [22; 27; 16; 26] 147; Cmp 17 24; Cmp 25 30; Rep [17; 30; 24; 25]
   [(17,24); (17,25); (24,30); (25,30)] [24; 30; 17; 25] 151; Cmp 18 19; Cmp 23 29; Rep [18; 29; 19;
   23] [(18,19); (18,23); (19,29); (23,29)] [19; 29; 18; 23] 155; Cmp 31 36; Cmp 37 44; Cmp 32 38;
   Cmp 42 43; Rep [31; 44; 36; 37] [(31,36); (31,37); (36,44); (37,44)] [36; 44; 31; 37] 159; Rep
   [32; 43; 38; 42] [(32,38); (32,42); (38,43); (42,43)] [38; 43; 32; 42] 163; Cmp 33 40; Cmp 41 46;
   Rep [33; 46; 40; 41] [(33,40); (33,41); (40,46); (41,46)] [40; 46; 33; 41] 167; Cmp 34 35; Cmp 39
   45; Rep [34; 45; 35; 39] [(34,35); (34,39); (35,45); (39,45)] [35; 45; 34; 39] 171; Cmp 47 52;
   Cmp 53 60; Cmp 48 54; Cmp 58 59; Rep [47; 60; 52; 53] [(47,52); (47,53); (52,60); (53,60)] [52;
   60; 47; 53] 175; Rep [48; 59; 54; 58] [(48,54); (48,58); (54,59); (58,59)] [54; 59; 48; 58] 179;
   Cmp 49 56; Cmp 57 62; Rep [49; 62; 56; 57] [(49,56); (49,57); (56,62); (57,62)] [56; 62; 49; 57]
   183; Cmp 50 51; Cmp 55 61; Rep [50; 61; 51; 55] [(50,51); (50,55); (51,61); (55,61)] [51; 61; 50;
   55] 187; Cmp 0 7; Cmp 4 10; Cmp 12 14; Cmp 1 6; Cmp 2 9; Cmp 5 11; Cmp 8 13; Rep [0; 4; 14; 3;
   10; 7; 12] [(0,7); (0,12); (4,10); (4,12); (3,10); (3,7); (10,14); (7,14); (12,14)] [10; 7; 0;
   14; 4; 12; 3] 191; Rep [1; 2; 5; 8; 6; 13; 9; 11] [(1,2); (1,5); (1,6); (2,8); (2,9); (5,8);
   (5,11); (6,9); (6,11); (8,13); (9,13); (11,13)] [2; 11; 5; 13; 1; 8; 6; 9] 198; Cmp 15 16; Cmp 27
   28; Cmp 17 18; Cmp 29 30; Cmp 31 32; Cmp 43 44; Cmp 33 34; Cmp 45 46; Cmp 47 48; Cmp 59 60; Cmp
   49 50; Cmp 61 62; Cmp 0 6; Cmp 2 4; Cmp 1 2; Cmp 3 5; Cmp 0 3; Cmp 0 1; Cmp 2 3; Cmp 1 2; Cmp 7
   11; Cmp 4 7; Cmp 8 10; Cmp 6 8; Cmp 4 6; Cmp 9 12; Cmp 5 9; Cmp 3 5; Cmp 3 4; Cmp 2 3; Cmp 5 6;
   Cmp 4 5; Cmp 7 9; Cmp 10 11; Cmp 13 14; Cmp 12 13; Cmp 10 12; Cmp 8 10; Cmp 7 8; Cmp 6 7; Cmp 5
   6; Cmp 9 10; Cmp 8 9; Cmp 7 8; Cmp 11 13; Cmp 11 12; Cmp 10 11; Cmp 15 17; Cmp 16 18; Cmp 16 17;
   Cmp 19 20; Cmp 21 23; Cmp 22 24; Cmp 21 22; Cmp 23 24; Cmp 25 26; Cmp 19 25; Cmp 19 21; Cmp 16
   19; Cmp 17 21; Cmp 17 19; Cmp 20 26; Cmp 20 22; Cmp 23 25; Cmp 20 23; Cmp 22 25; Cmp 24 26; Cmp
   27 29; Cmp 18 27; Cmp 18 21; Cmp 18 20; Cmp 18 19; Cmp 21 23; Cmp 20 21; Cmp 28 30; Cmp 28 29;
   Cmp 24 28; Cmp 24 27; Cmp 22 24; Cmp 22 23; Cmp 21 22; Cmp 25 27; Cmp 24 25; Cmp 23 24; Cmp 26
   29; Cmp 26 28; Cmp 26 27; Rep [0; 4; 14; 3; 10; 7; 12; 1; 2; 5; 8; 6; 13; 9; 11] [(0,1); (1,2);
   (2,3); (3,4); (4,5); (5,6); (6,7); (7,8); (8,9); (9,10); (10,11); (11,12); (12,13); (13,14)] [7;
   11; 3; 13; 9; 5; 1; 14; 12; 10; 8; 6; 4; 2; 0] 206; Rep [15; 28; 20; 21; 16; 27; 22; 26; 17; 30;
   24; 25; 18; 29; 19; 23] [(15,16); (16,17); (17,18); (18,19); (19,20); (20,21); (21,22); (22,23);
   (23,24); (24,25); (25,26); (26,27); (27,28); (28,29); (29,30)] [22; 27; 18; 29; 24; 20; 16; 30;
   28; 26; 23; 21; 19; 17; 15; 25] 221; Cmp 11 30; Cmp 31 33; Cmp 32 34; Cmp 32 33; Cmp 35 36; Cmp
   37 39; Cmp 38 40; Cmp 37 38; Cmp 39 40; Cmp 41 42; Cmp 35 41; Cmp 35 37; Cmp 32 35; Cmp 33 37;
   Cmp 33 35; Cmp 36 42; Cmp 36 38; Cmp 39 41; Cmp 36 39; Cmp 38 41; Cmp 40 42; Cmp 43 45; Cmp 34
   43; Cmp 34 37; Cmp 34 36; Cmp 34 35; Cmp 37 39; Cmp 36 37; Cmp 44 46; Cmp 44 45; Cmp 40 44; Cmp
   40 43; Cmp 38 40; Cmp 38 39; Cmp 37 38; Cmp 41 43; Cmp 40 41; Cmp 39 40; Cmp 42 45; Cmp 42 44;
   Cmp 42 43; Rep [31; 44; 36; 37; 32; 43; 38; 42; 33; 46; 40; 41; 34; 45; 35; 39] [(31,32);
   (32,33); (33,34); (34,35); (35,36); (36,37); (37,38); (38,39); (39,40); (40,41); (41,42);
   (42,43); (43,44); (44,45); (45,46)] [38; 43; 34; 45; 40; 36; 32; 46; 44; 42; 39; 37; 35; 33; 31;
   41] 237; Cmp 47 49; Cmp 48 50; Cmp 48 49; Cmp 51 52; Cmp 53 55; Cmp 54 56; Cmp 53 54; Cmp 55 56;
   Cmp 57 58; Cmp 51 57; Cmp 51 53; Cmp 48 51; Cmp 49 53; Cmp 49 51; Cmp 52 58; Cmp 52 54; Cmp 55
   57; Cmp 52 55; Cmp 54 57; Cmp 56 58; Cmp 59 61; Cmp 50 59; Cmp 50 53; Cmp 50 52; Cmp 50 51; Cmp
   53 55; Cmp 52 53; Cmp 60 62; Cmp 60 61; Cmp 56 60; Cmp 56 59; Cmp 54 56; Cmp 54 55; Cmp 53 54;
   Cmp 57 59; Cmp 56 57; Cmp 55 56; Cmp 58 61; Cmp 58 60; Cmp 58 59; Rep [47; 60; 52; 53; 48; 59;
   54; 58; 49; 62; 56; 57; 50; 61; 51; 55] [(47,48); (48,49); (49,50); (50,51); (51,52); (52,53);
   (53,54); (54,55); (55,56); (56,57); (57,58); (58,59); (59,60); (60,61); (61,62)] [54; 59; 50; 61;
   56; 52; 48; 62; 60; 58; 55; 53; 51; 49; 47; 57] 253; Cmp 46 62; Cmp 0 31; Cmp 1 32; Cmp 2 33; Cmp
   3 38; Cmp 4 51; Cmp 5 52; Cmp 6 53; Cmp 7 42; Cmp 8 39; Cmp 9 40; Cmp 10 41; Cmp 11 46; Cmp 12
   59; Cmp 13 60; Cmp 14 61; Cmp 15 47; Cmp 0 15; Cmp 16 48; Cmp 1 16; Cmp 17 49; Cmp 2 17; Cmp 18
   50; Cmp 7 50; Cmp 18 34; Cmp 19 35; Cmp 4 19; Cmp 20 36; Cmp 5 20; Cmp 21 37; Cmp 6 21; Cmp 22
   54; Cmp 3 22; Cmp 3 18; Cmp 23 55; Cmp 8 23; Cmp 24 56; Cmp 9 24; Cmp 25 57; Cmp 10 25; Cmp 26
   58; Cmp 26 34; Cmp 7 26; Cmp 7 18; Cmp 27 43; Cmp 12 27; Cmp 12 19; Cmp 28 44; Cmp 13 28; Cmp 13
   20; Cmp 29 45; Cmp 14 29; Cmp 14 21; Cmp 30 62; Cmp 30 46; Cmp 31 47; Cmp 15 31; Cmp 4 15; Cmp 1
   4; Cmp 8 31; Cmp 8 15; Cmp 2 8; Cmp 2 4; Cmp 32 48; Cmp 16 32; Cmp 5 16; Cmp 9 32; Cmp 9 16; Cmp
   3 9; Cmp 3 8; Cmp 33 49; Cmp 17 33; Cmp 6 17; Cmp 10 33; Cmp 10 17; Cmp 35 51; Cmp 19 35; Cmp 19
   31; Cmp 36 52; Cmp 20 36; Cmp 20 32; Cmp 37 53; Cmp 21 37; Cmp 21 33; Cmp 38 54; Cmp 11 38; Cmp
   22 38; Cmp 11 22; Cmp 30 54; Cmp 30 38; Cmp 39 55; Cmp 23 39; Cmp 23 47; Cmp 12 23; Cmp 12 19;
   Cmp 12 15; Cmp 6 12; Cmp 5 6; Cmp 3 5; Cmp 3 4; Cmp 6 8; Cmp 5 6; Cmp 9 12; Cmp 10 15; Cmp 23 31;
   Cmp 19 23; Cmp 35 39; Cmp 40 56; Cmp 24 40; Cmp 24 48; Cmp 13 24; Cmp 13 20; Cmp 13 16; Cmp 7 13;
   Cmp 7 10; Cmp 7 9; Cmp 7 8; Cmp 10 12; Cmp 9 10; Cmp 24 32; Cmp 20 24; Cmp 36 40; Cmp 41 57; Cmp
   25 41; Cmp 25 49; Cmp 14 25; Cmp 14 21; Cmp 14 17; Cmp 14 19; Cmp 13 14; Cmp 17 23; Cmp 25 33;
   Cmp 21 25; Cmp 37 41; Cmp 42 58; Cmp 42 50; Cmp 34 42; Cmp 26 34; Cmp 11 26; Cmp 11 18; Cmp 11
   16; Cmp 11 15; Cmp 11 13; Cmp 11 12; Cmp 14 15; Cmp 13 14; Cmp 16 19; Cmp 18 20; Cmp 17 18; Cmp
   16 17; Cmp 15 16; Cmp 18 19; Cmp 17 18; Cmp 20 23; Cmp 22 34; Cmp 22 26; Cmp 22 24; Cmp 42 50;
   Cmp 30 42; Cmp 30 34; Cmp 38 50; Cmp 38 42; Cmp 43 59; Cmp 27 43; Cmp 27 51; Cmp 27 47; Cmp 27
   35; Cmp 27 31; Cmp 21 27; Cmp 21 22; Cmp 20 21; Cmp 19 20; Cmp 22 23; Cmp 21 22; Cmp 24 27; Cmp
   25 31; Cmp 39 47; Cmp 35 39; Cmp 43 55; Cmp 43 51; Cmp 43 47; Cmp 44 60; Cmp 28 44; Cmp 28 52;
   Cmp 28 48; Cmp 28 36; Cmp 28 32; Cmp 26 28; Cmp 25 26; Cmp 24 25; Cmp 23 24; Cmp 26 27; Cmp 25
   26; Cmp 28 31; Cmp 30 32; Cmp 40 48; Cmp 36 40; Cmp 34 36; Cmp 38 40; Cmp 44 56; Cmp 44 52; Cmp
   44 48; Cmp 42 44; Cmp 45 61; Cmp 29 45; Cmp 29 53; Cmp 29 49; Cmp 29 37; Cmp 29 33; Cmp 29 35;
   Cmp 29 30; Cmp 28 29; Cmp 27 28; Cmp 30 31; Cmp 29 30; Cmp 32 35; Cmp 33 39; Cmp 33 34; Cmp 32
   33; Cmp 31 32; Cmp 34 35; Cmp 33 34; Cmp 38 39; Cmp 41 49; Cmp 37 41; Cmp 37 43; Cmp 36 37; Cmp
   36 38; Cmp 35 36; Cmp 37 39; Cmp 37 38; Cmp 41 47; Cmp 40 41; Cmp 42 43; Cmp 40 42; Cmp 39 40;
   Cmp 41 43; Cmp 41 42; Cmp 44 47; Cmp 45 57; Cmp 45 53; Cmp 45 49; Cmp 45 51; Cmp 46 58; Cmp 46
   54; Cmp 46 50; Cmp 46 48; Cmp 45 46; Cmp 44 45; Cmp 43 44; Cmp 46 47; Cmp 45 46; Cmp 49 55; Cmp
   49 51; Cmp 50 52; Cmp 48 50; Cmp 48 49; Cmp 47 48; Cmp 50 51; Cmp 49 50; Cmp 53 59; Cmp 52 53;
   Cmp 54 56; Cmp 54 55; Cmp 52 54; Cmp 51 52; Cmp 53 55; Cmp 53 54; Cmp 56 57; Cmp 58 60; Cmp 58
   59; Cmp 56 58; Cmp 55 56; Cmp 57 59; Cmp 57 58; Cmp 61 62; Cmp 60 61; Cmp 59 60].
Lemma check63 : check 63%nat 1 swaps63 plan63 = true.
Proof. vm_cast_no_check (eq_refl true). Qed.
Lemma sorts63 : sorts01 63%nat (map pn swaps63).
Proof. eapply check_sound; [vm_compute; reflexivity|exact check63]. Qed.
