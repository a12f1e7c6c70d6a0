(** Certificates found by tools/plan_search.cpp, written by tools/gen_plans.py, checked by
    Proofs/NetCheck.v. *)
From Coq Require Import List NArith.
From Verif Require Import Proofs.NetLib Proofs.NetCheck Model.NetworkTables.
Import ListNotations.
Local Open Scope N_scope.

Definition plan2 : list op :=
  [Cmp 0 1].
Lemma check2 : check 2%nat 1 swaps2 plan2 = true.
Proof. vm_cast_no_check (eq_refl true). Qed.
Lemma sorts2 : sorts01 2%nat (map pn swaps2).
Proof. eapply check_sound; [vm_compute; reflexivity|exact check2]. Qed.

Definition plan3 : list op :=
  [Cmp 0 1; Rep [0; 1] [(0,1)] [0; 1] 1; Cmp 1 2; Cmp 0 1].
Lemma check3 : check 3%nat 4 swaps3 plan3 = true.
Proof. vm_cast_no_check (eq_refl true). Qed.
Lemma sorts3 : sorts01 3%nat (map pn swaps3).
Proof. eapply check_sound; [vm_compute; reflexivity|exact check3]. Qed.

Definition plan4 : list op :=
  [Cmp 0 2; Cmp 1 3; Rep [0; 2] [(0,2)] [0; 2] 7; Rep [1; 3] [(1,3)] [1; 3] 9; Cmp 0 1; Cmp 2 3; Cmp 1
   2].
Lemma check4 : check 4%nat 1 swaps4 plan4 = true.
Proof. vm_cast_no_check (eq_refl true). Qed.
Lemma sorts4 : sorts01 4%nat (map pn swaps4).
Proof. eapply check_sound; [vm_compute; reflexivity|exact check4]. Qed.

Definition plan5 : list op :=
  [Cmp 0 3; Rep [0; 3] [(0,3)] [0; 3] 8; Cmp 1 4; Rep [1; 4] [(1,4)] [1; 4] 10; Cmp 0 2; Rep [0; 3; 2]
   [(0,3); (0,2)] [0; 3; 2] 12; Cmp 1 3; Cmp 0 1; Cmp 2 4; Cmp 1 2; Cmp 3 4; Cmp 2 3].
Lemma check5 : check 5%nat 1 swaps5 plan5 = true.
Proof. vm_cast_no_check (eq_refl true). Qed.
Lemma sorts5 : sorts01 5%nat (map pn swaps5).
Proof. eapply check_sound; [vm_compute; reflexivity|exact check5]. Qed.

Definition plan6 : list op :=
  [Cmp 0 5; Cmp 1 3; Cmp 2 4; Rep [1; 3] [(1,3)] [1; 3] 9; Rep [2; 4] [(2,4)] [2; 4] 7; Cmp 1 2; Cmp 3
   4; Rep [0; 5] [(0,5)] [0; 5] 5; Rep [1; 3; 2; 4] [(1,3); (1,2); (3,4); (2,4)] [3; 2; 1; 4] 1; Cmp
   0 3; Cmp 0 1; Cmp 2 5; Cmp 2 3; Cmp 1 2; Cmp 4 5; Cmp 3 4].
Lemma check6 : check 6%nat 12 swaps6 plan6 = true.
Proof. vm_cast_no_check (eq_refl true). Qed.
Lemma sorts6 : sorts01 6%nat (map pn swaps6).
Proof. eapply check_sound; [vm_compute; reflexivity|exact check6]. Qed.

Definition plan7 : list op :=
  [Cmp 0 6; Cmp 4 5; Rep [4; 5] [(4,5)] [4; 5] 9; Cmp 2 3; Rep [0; 6] [(0,6)] [0; 6] 7; Rep [2; 3]
   [(2,3)] [2; 3] 5; Cmp 0 2; Cmp 3 6; Rep [0; 6; 2; 3] [(0,2); (0,3); (2,6); (3,6)] [2; 6; 0; 3] 1;
   Cmp 2 5; Cmp 1 4; Cmp 0 1; Cmp 1 2; Cmp 3 4; Cmp 2 3; Cmp 1 2; Cmp 4 6; Cmp 4 5; Cmp 3 4; Cmp 5
   6].
Lemma check7 : check 7%nat 12 swaps7 plan7 = true.
Proof. vm_cast_no_check (eq_refl true). Qed.
Lemma sorts7 : sorts01 7%nat (map pn swaps7).
Proof. eapply check_sound; [vm_compute; reflexivity|exact check7]. Qed.

Definition plan8 : list op :=
  [Cmp 0 2; Cmp 1 3; Cmp 4 6; Rep [0; 2] [(0,2)] [0; 2] 11; Rep [4; 6] [(4,6)] [4; 6] 13; Cmp 5 7; Rep
   [1; 3] [(1,3)] [1; 3] 15; Rep [5; 7] [(5,7)] [5; 7] 17; Cmp 0 4; Cmp 2 6; Cmp 1 5; Cmp 3 7; Rep
   [0; 2; 4; 6] [(0,2); (0,4); (2,6); (4,6)] [2; 4; 0; 6] 19; Rep [1; 3; 5; 7] [(1,3); (1,5); (3,7);
   (5,7)] [3; 5; 1; 7] 23; Cmp 0 1; Cmp 2 3; Cmp 4 5; Cmp 2 4; Cmp 1 4; Cmp 1 2; Cmp 3 5; Cmp 6 7;
   Cmp 3 6; Cmp 3 4; Cmp 5 6].
Lemma check8 : check 8%nat 1 swaps8 plan8 = true.
Proof. vm_cast_no_check (eq_refl true). Qed.
Lemma sorts8 : sorts01 8%nat (map pn swaps8).
Proof. eapply check_sound; [vm_compute; reflexivity|exact check8]. Qed.

Definition plan9 : list op :=
  [Cmp 1 7; Cmp 2 5; Rep [2; 5] [(2,5)] [2; 5] 12; Cmp 0 3; Rep [0; 3] [(0,3)] [0; 3] 14; Rep [1; 7]
   [(1,7)] [1; 7] 16; Cmp 5 6; Cmp 4 8; Rep [2; 5; 6] [(2,6); (5,6)] [6; 2; 5] 18; Rep [4; 8]
   [(4,8)] [4; 8] 21; Cmp 0 7; Rep [0; 3; 1; 7] [(0,3); (0,7); (1,7)] [0; 1; 3; 7] 23; Cmp 2 4; Cmp
   4 5; Cmp 3 8; Cmp 0 2; Cmp 1 3; Cmp 1 4; Cmp 0 1; Cmp 2 4; Cmp 3 6; Cmp 7 8; Cmp 5 7; Cmp 3 5;
   Cmp 2 3; Cmp 1 2; Cmp 4 5; Cmp 3 4; Cmp 6 8; Cmp 6 7; Cmp 5 6].
Lemma check9 : check 9%nat 1 swaps9 plan9 = true.
Proof. vm_cast_no_check (eq_refl true). Qed.
Lemma sorts9 : sorts01 9%nat (map pn swaps9).
Proof. eapply check_sound; [vm_compute; reflexivity|exact check9]. Qed.

Definition plan10 : list op :=
  [Cmp 3 5; Cmp 0 8; Rep [3; 5] [(3,5)] [3; 5] 13; Rep [0; 8] [(0,8)] [0; 8] 15; Cmp 4 6; Cmp 2 7; Rep
   [2; 7] [(2,7)] [2; 7] 17; Cmp 1 9; Rep [1; 9] [(1,9)] [1; 9] 19; Rep [4; 6] [(4,6)] [4; 6] 21;
   Cmp 0 2; Cmp 1 4; Cmp 0 3; Cmp 5 8; Cmp 2 4; Cmp 0 1; Cmp 7 9; Cmp 5 7; Cmp 1 5; Cmp 6 9; Cmp 3
   6; Cmp 2 3; Cmp 1 2; Cmp 3 5; Cmp 2 3; Cmp 6 7; Cmp 8 9; Cmp 4 8; Cmp 4 6; Cmp 4 5; Cmp 3 4; Cmp
   7 8; Cmp 6 7; Cmp 5 6].
Lemma check10 : check 10%nat 1 swaps10 plan10 = true.
Proof. vm_cast_no_check (eq_refl true). Qed.
Lemma sorts10 : sorts01 10%nat (map pn swaps10).
Proof. eapply check_sound; [vm_compute; reflexivity|exact check10]. Qed.

Definition plan11 : list op :=
  [Cmp 5 8; Cmp 1 6; Cmp 2 4; Rep [2; 4] [(2,4)] [2; 4] 14; Cmp 3 7; Rep [3; 7] [(3,7)] [3; 7] 16; Rep
   [5; 8] [(5,8)] [5; 8] 18; Cmp 0 9; Rep [0; 9] [(0,9)] [0; 9] 20; Rep [1; 6] [(1,6)] [1; 6] 22;
   Cmp 6 9; Cmp 0 1; Cmp 4 10; Cmp 7 8; Cmp 3 5; Rep [1; 6; 0; 9] [(0,1); (0,6); (1,9); (6,9)] [1;
   6; 9; 0] 24; Rep [3; 7; 5; 8] [(3,7); (3,5); (7,8); (5,8)] [7; 5; 3; 8] 28; Rep [2; 4; 10]
   [(2,10); (4,10)] [10; 2; 4] 32; Cmp 8 10; Cmp 2 5; Cmp 4 7; Rep [3; 7; 5; 8; 2; 4; 10] [(3,7);
   (3,5); (2,5); (2,8); (4,7); (4,8); (7,10); (5,10); (8,10)] [7; 5; 8; 10; 2; 4; 3] 35; Cmp 5 9;
   Cmp 0 4; Cmp 1 3; Cmp 1 2; Cmp 0 1; Cmp 3 7; Cmp 4 5; Cmp 6 8; Cmp 2 6; Cmp 2 4; Cmp 1 2; Cmp 3
   6; Cmp 3 4; Cmp 2 3; Cmp 7 8; Cmp 5 7; Cmp 5 6; Cmp 4 5; Cmp 9 10; Cmp 8 9; Cmp 7 8; Cmp 6 7].
Lemma check11 : check 11%nat 1 swaps11 plan11 = true.
Proof. vm_cast_no_check (eq_refl true). Qed.
Lemma sorts11 : sorts01 11%nat (map pn swaps11).
Proof. eapply check_sound; [vm_compute; reflexivity|exact check11]. Qed.

Definition plan12 : list op :=
  [Cmp 1 7; Cmp 2 6; Cmp 4 10; Cmp 5 9; Rep [2; 6] [(2,6)] [2; 6] 15; Rep [5; 9] [(5,9)] [5; 9] 17;
   Cmp 0 8; Rep [0; 8] [(0,8)] [0; 8] 19; Rep [1; 7] [(1,7)] [1; 7] 21; Cmp 7 8; Cmp 0 1; Cmp 6 9;
   Cmp 2 5; Rep [1; 7; 0; 8] [(0,1); (0,7); (1,8); (7,8)] [1; 7; 8; 0] 23; Rep [2; 6; 5; 9] [(2,6);
   (2,5); (6,9); (5,9)] [6; 5; 2; 9] 27; Cmp 3 11; Rep [3; 11] [(3,11)] [3; 11] 31; Rep [4; 10]
   [(4,10)] [4; 10] 33; Cmp 10 11; Cmp 3 4; Rep [4; 10; 3; 11] [(3,4); (3,10); (4,11); (10,11)] [4;
   10; 11; 3] 35; Cmp 9 11; Cmp 5 10; Cmp 9 10; Cmp 0 2; Cmp 0 3; Cmp 1 6; Cmp 1 2; Cmp 4 6; Cmp 1
   4; Cmp 5 7; Cmp 3 5; Cmp 1 3; Cmp 2 5; Cmp 2 3; Cmp 4 5; Cmp 7 10; Cmp 8 11; Cmp 6 8; Cmp 6 9;
   Cmp 6 7; Cmp 4 6; Cmp 3 4; Cmp 5 7; Cmp 5 6; Cmp 8 10; Cmp 8 9; Cmp 7 8].
Lemma check12 : check 12%nat 1 swaps12 plan12 = true.
Proof. vm_cast_no_check (eq_refl true). Qed.
Lemma sorts12 : sorts01 12%nat (map pn swaps12).
Proof. eapply check_sound; [vm_compute; reflexivity|exact check12]. Qed.

Definition plan13 : list op :=
  [Cmp 5 11; Rep [5; 11] [(5,11)] [5; 11] 16; Cmp 0 12; Cmp 2 9; Cmp 3 7; Rep [2; 9] [(2,9)] [2; 9]
   18; Rep [3; 7] [(3,7)] [3; 7] 20; Cmp 4 11; Rep [0; 12] [(0,12)] [0; 12] 22; Rep [4; 5; 11]
   [(4,11); (5,11)] [11; 4; 5] 24; Cmp 1 10; Cmp 2 3; Cmp 7 9; Cmp 6 8; Rep [1; 10] [(1,10)] [1; 10]
   27; Rep [6; 8] [(6,8)] [6; 8] 29; Cmp 8 10; Cmp 1 6; Rep [6; 8; 1; 10] [(1,6); (1,8); (6,10);
   (8,10)] [6; 8; 10; 1] 31; Rep [2; 9; 3; 7] [(2,3); (2,7); (3,9); (7,9)] [3; 9; 2; 7] 35; Cmp 1 2;
   Cmp 3 6; Cmp 7 8; Cmp 9 10; Rep [6; 8; 1; 10; 2; 9; 3; 7] [(1,2); (1,3); (1,7); (2,6); (2,8);
   (3,6); (3,9); (7,8); (7,9); (6,10); (8,10); (9,10)] [6; 8; 7; 10; 9; 3; 1; 2] 39; Cmp 11 12; Cmp
   0 4; Rep [4; 5; 11; 0; 12] [(5,12); (0,4); (0,11); (4,12); (11,12)] [4; 12; 11; 5; 0] 47; Cmp 8
   11; Cmp 3 8; Cmp 4 6; Cmp 4 7; Cmp 5 9; Cmp 0 5; Cmp 0 1; Cmp 1 3; Cmp 2 5; Cmp 2 4; Cmp 1 2; Cmp
   3 4; Cmp 2 3; Cmp 6 11; Cmp 7 8; Cmp 10 12; Cmp 9 10; Cmp 6 9; Cmp 5 6; Cmp 5 7; Cmp 4 5; Cmp 3
   4; Cmp 6 8; Cmp 6 7; Cmp 5 6; Cmp 10 11; Cmp 9 10; Cmp 8 9].
Lemma check13 : check 13%nat 1 swaps13 plan13 = true.
Proof. vm_cast_no_check (eq_refl true). Qed.
Lemma sorts13 : sorts01 13%nat (map pn swaps13).
Proof. eapply check_sound; [vm_compute; reflexivity|exact check13]. Qed.

Definition plan14 : list op :=
  [Cmp 8 9; Cmp 2 3; Cmp 4 5; Rep [4; 5] [(4,5)] [4; 5] 17; Rep [8; 9] [(8,9)] [8; 9] 19; Cmp 12 13;
   Cmp 0 1; Rep [0; 1] [(0,1)] [0; 1] 21; Rep [2; 3] [(2,3)] [2; 3] 23; Cmp 5 9; Cmp 4 8; Cmp 5 8;
   Cmp 10 11; Rep [10; 11] [(10,11)] [10; 11] 25; Rep [12; 13] [(12,13)] [12; 13] 27; Cmp 11 13; Cmp
   10 12; Cmp 11 12; Rep [4; 5; 8; 9] [(4,5); (5,8); (8,9)] [5; 8; 4; 9] 29; Rep [10; 11; 12; 13]
   [(10,11); (11,12); (12,13)] [11; 12; 10; 13] 33; Cmp 0 2; Cmp 1 3; Cmp 1 2; Rep [0; 1; 2; 3]
   [(0,1); (1,2); (2,3)] [1; 2; 0; 3] 37; Cmp 6 7; Rep [6; 7] [(6,7)] [6; 7] 41; Cmp 6 10; Cmp 0 4;
   Cmp 1 5; Cmp 3 7; Cmp 0 6; Cmp 4 10; Cmp 2 10; Cmp 4 6; Cmp 8 12; Cmp 2 8; Cmp 9 13; Cmp 3 9; Cmp
   3 11; Cmp 1 3; Cmp 1 4; Cmp 5 11; Cmp 3 5; Cmp 7 13; Cmp 7 9; Cmp 6 7; Cmp 2 6; Cmp 2 4; Cmp 3 6;
   Cmp 3 4; Cmp 7 11; Cmp 10 12; Cmp 8 10; Cmp 5 8; Cmp 5 6; Cmp 7 10; Cmp 7 8; Cmp 6 7; Cmp 9 12;
   Cmp 9 11; Cmp 9 10].
Lemma check14 : check 14%nat 1 swaps14 plan14 = true.
Proof. vm_cast_no_check (eq_refl true). Qed.
Lemma sorts14 : sorts01 14%nat (map pn swaps14).
Proof. eapply check_sound; [vm_compute; reflexivity|exact check14]. Qed.

Definition plan15 : list op :=
  [Cmp 3 10; Cmp 1 2; Cmp 5 8; Rep [1; 2] [(1,2)] [1; 2] 18; Rep [5; 8] [(5,8)] [5; 8] 20; Cmp 9 11;
   Cmp 6 13; Rep [6; 13] [(6,13)] [6; 13] 22; Rep [9; 11] [(9,11)] [9; 11] 24; Cmp 7 12; Rep [3; 10]
   [(3,10)] [3; 10] 26; Rep [7; 12] [(7,12)] [7; 12] 28; Cmp 10 12; Cmp 3 7; Cmp 11 13; Cmp 6 9; Cmp
   4 14; Rep [4; 14] [(4,14)] [4; 14] 30; Rep [3; 10; 7; 12] [(3,10); (3,7); (10,12); (7,12)] [10;
   7; 3; 12] 32; Cmp 0 14; Rep [0; 4; 14] [(0,14); (4,14)] [14; 0; 4] 36; Cmp 1 5; Cmp 2 8; Rep [1;
   2; 5; 8] [(1,2); (1,5); (2,8); (5,8)] [2; 5; 1; 8] 39; Rep [9; 11; 6; 13] [(6,9); (6,11); (9,13);
   (11,13)] [9; 11; 13; 6] 43; Cmp 8 13; Cmp 1 6; Cmp 2 9; Cmp 5 11; Rep [1; 2; 5; 8; 9; 11; 6; 13]
   [(1,2); (1,5); (1,6); (2,8); (2,9); (5,8); (5,11); (6,9); (6,11); (8,13); (9,13); (11,13)] [2;
   11; 5; 13; 1; 8; 9; 6] 47; Cmp 0 7; Cmp 4 10; Cmp 12 14; Rep [0; 4; 14; 3; 10; 7; 12] [(0,7);
   (0,12); (4,10); (4,12); (3,10); (3,7); (10,14); (7,14); (12,14)] [10; 7; 0; 14; 4; 12; 3] 55; Cmp
   2 4; Cmp 0 6; Cmp 1 2; Cmp 3 5; Cmp 0 3; Cmp 0 1; Cmp 2 3; Cmp 1 2; Cmp 7 11; Cmp 4 7; Cmp 8 10;
   Cmp 6 8; Cmp 4 6; Cmp 9 12; Cmp 5 9; Cmp 3 5; Cmp 3 4; Cmp 2 3; Cmp 5 6; Cmp 4 5; Cmp 7 9; Cmp 10
   11; Cmp 13 14; Cmp 12 13; Cmp 10 12; Cmp 8 10; Cmp 7 8; Cmp 6 7; Cmp 5 6; Cmp 9 10; Cmp 8 9; Cmp
   7 8; Cmp 11 13; Cmp 11 12; Cmp 10 11].
Lemma check15 : check 15%nat 1 swaps15 plan15 = true.
Proof. vm_cast_no_check (eq_refl true). Qed.
Lemma sorts15 : sorts01 15%nat (map pn swaps15).
Proof. eapply check_sound; [vm_compute; reflexivity|exact check15]. Qed.

Definition plan16 : list op :=
  [Cmp 3 14; Cmp 5 6; Cmp 0 13; Rep [0; 13] [(0,13)] [0; 13] 31; Rep [5; 6] [(5,6)] [5; 6] 29; Cmp 4
   8; Rep [3; 14] [(3,14)] [3; 14] 27; Rep [4; 8] [(4,8)] [4; 8] 25; Cmp 7 11; Cmp 2 15; Cmp 1 12;
   Rep [1; 12] [(1,12)] [1; 12] 23; Rep [7; 11] [(7,11)] [7; 11] 21; Cmp 9 10; Rep [2; 15] [(2,15)]
   [2; 15] 19; Rep [9; 10] [(9,10)] [9; 10] 17; Cmp 2 9; Cmp 10 15; Cmp 11 12; Cmp 1 7; Rep [7; 11;
   1; 12] [(1,7); (1,11); (7,12); (11,12)] [7; 11; 12; 1] 13; Rep [2; 15; 9; 10] [(2,9); (2,10);
   (9,15); (10,15)] [9; 15; 2; 10] 9; Cmp 0 5; Cmp 6 13; Rep [0; 13; 5; 6] [(0,5); (0,6); (5,13);
   (6,13)] [5; 13; 0; 6] 5; Cmp 8 14; Cmp 3 4; Rep [4; 8; 3; 14] [(3,4); (3,8); (4,14); (8,14)] [4;
   8; 14; 3] 1; Cmp 4 5; Cmp 6 8; Cmp 10 11; Cmp 7 9; Cmp 5 11; Cmp 0 1; Cmp 2 3; Cmp 0 2; Cmp 1 3;
   Cmp 1 2; Cmp 4 10; Cmp 6 7; Cmp 4 6; Cmp 1 4; Cmp 2 6; Cmp 2 4; Cmp 5 7; Cmp 8 9; Cmp 8 10; Cmp 5
   8; Cmp 7 10; Cmp 9 11; Cmp 12 13; Cmp 14 15; Cmp 12 14; Cmp 3 12; Cmp 3 6; Cmp 3 5; Cmp 3 4; Cmp
   6 8; Cmp 5 6; Cmp 13 15; Cmp 13 14; Cmp 9 13; Cmp 9 12; Cmp 7 9; Cmp 7 8; Cmp 6 7; Cmp 10 12; Cmp
   9 10; Cmp 8 9; Cmp 11 14; Cmp 11 13; Cmp 11 12].
Lemma check16 : check 16%nat 34 swaps16 plan16 = true.
Proof. vm_cast_no_check (eq_refl true). Qed.
Lemma sorts16 : sorts01 16%nat (map pn swaps16).
Proof. eapply check_sound; [vm_compute; reflexivity|exact check16]. Qed.

Definition plan17 : list op :=
  [Cmp 8 12; Cmp 0 11; Rep [0; 11] [(0,11)] [0; 11] 31; Cmp 9 16; Cmp 3 5; Cmp 2 10; Rep [2; 10]
   [(2,10)] [2; 10] 29; Rep [8; 12] [(8,12)] [8; 12] 27; Cmp 1 15; Rep [3; 5] [(3,5)] [3; 5] 25; Rep
   [1; 15] [(1,15)] [1; 15] 23; Cmp 4 6; Rep [4; 6] [(4,6)] [4; 6] 21; Cmp 2 8; Cmp 5 15; Cmp 0 6;
   Rep [0; 11; 4; 6] [(0,11); (0,6); (4,6)] [0; 4; 11; 6] 17; Rep [9; 16] [(9,16)] [9; 16] 15; Cmp
   13 14; Rep [13; 14] [(13,14)] [13; 14] 13; Cmp 7 11; Rep [7; 0; 11; 4; 6] [(7,11); (0,11); (0,6);
   (4,6)] [0; 7; 4; 11; 6] 8; Cmp 4 14; Rep [7; 0; 11; 4; 6; 13; 14] [(7,11); (0,11); (0,6); (4,6);
   (4,14); (13,14)] [0; 4; 14; 7; 13; 11; 6] 1; Cmp 4 9; Cmp 6 16; Cmp 12 14; Cmp 0 8; Cmp 0 2; Cmp
   8 9; Cmp 10 11; Cmp 10 12; Cmp 11 14; Cmp 5 6; Cmp 1 13; Cmp 1 4; Cmp 2 5; Cmp 3 7; Cmp 0 3; Cmp
   0 1; Cmp 1 2; Cmp 3 4; Cmp 6 11; Cmp 7 13; Cmp 7 10; Cmp 5 10; Cmp 7 8; Cmp 3 7; Cmp 1 3; Cmp 2
   7; Cmp 2 3; Cmp 4 8; Cmp 4 5; Cmp 5 7; Cmp 9 13; Cmp 6 9; Cmp 15 16; Cmp 12 15; Cmp 6 12; Cmp 4
   6; Cmp 3 4; Cmp 10 12; Cmp 8 10; Cmp 6 8; Cmp 5 6; Cmp 4 5; Cmp 10 12; Cmp 11 15; Cmp 14 16; Cmp
   13 14; Cmp 11 13; Cmp 9 11; Cmp 7 9; Cmp 7 8; Cmp 6 7; Cmp 9 10; Cmp 8 9; Cmp 11 12; Cmp 10 11;
   Cmp 14 15; Cmp 13 14; Cmp 12 13].
Lemma check17 : check 17%nat 34 swaps17 plan17 = true.
Proof. vm_cast_no_check (eq_refl true). Qed.
Lemma sorts17 : sorts01 17%nat (map pn swaps17).
Proof. eapply check_sound; [vm_compute; reflexivity|exact check17]. Qed.

Definition plan18 : list op :=
  [Cmp 16 17; Cmp 4 5; Cmp 10 11; Cmp 8 9; Rep [8; 9] [(8,9)] [8; 9] 37; Rep [10; 11] [(10,11)] [10;
   11] 35; Cmp 2 3; Cmp 0 1; Rep [0; 1] [(0,1)] [0; 1] 33; Rep [2; 3] [(2,3)] [2; 3] 31; Cmp 14 15;
   Rep [14; 15] [(14,15)] [14; 15] 29; Rep [16; 17] [(16,17)] [16; 17] 27; Cmp 6 7; Rep [6; 7]
   [(6,7)] [6; 7] 25; Cmp 12 13; Rep [4; 5] [(4,5)] [4; 5] 23; Rep [12; 13] [(12,13)] [12; 13] 21;
   Cmp 5 13; Cmp 4 12; Cmp 14 16; Cmp 15 17; Cmp 6 8; Cmp 1 3; Cmp 0 2; Rep [0; 1; 2; 3] [(0,1);
   (0,2); (1,3); (2,3)] [1; 2; 0; 3] 17; Rep [14; 15; 16; 17] [(14,15); (14,16); (15,17); (16,17)]
   [15; 16; 14; 17] 13; Cmp 1 16; Cmp 0 14; Cmp 2 15; Cmp 3 17; Rep [0; 1; 2; 3; 14; 15; 16; 17]
   [(0,1); (0,2); (0,14); (1,3); (1,16); (2,3); (2,15); (14,15); (14,16); (3,17); (15,17); (16,17)]
   [1; 15; 2; 17; 0; 3; 14; 16] 5; Cmp 9 11; Cmp 7 16; Cmp 0 6; Cmp 1 10; Cmp 2 9; Cmp 3 9; Cmp 8
   15; Cmp 8 14; Cmp 11 17; Rep [4; 5; 12; 13] [(4,5); (4,12); (5,13); (12,13)] [5; 12; 4; 13] 1;
   Cmp 1 4; Cmp 0 1; Cmp 4 14; Cmp 4 6; Cmp 5 7; Cmp 2 5; Cmp 1 2; Cmp 7 9; Cmp 10 12; Cmp 8 10; Cmp
   4 8; Cmp 1 4; Cmp 2 8; Cmp 2 4; Cmp 6 10; Cmp 12 15; Cmp 12 14; Cmp 13 16; Cmp 3 13; Cmp 3 5; Cmp
   3 6; Cmp 5 12; Cmp 10 12; Cmp 6 10; Cmp 11 13; Cmp 7 11; Cmp 5 7; Cmp 5 8; Cmp 3 5; Cmp 3 4; Cmp
   6 8; Cmp 5 6; Cmp 9 13; Cmp 11 14; Cmp 7 11; Cmp 7 10; Cmp 7 8; Cmp 16 17; Cmp 15 16; Cmp 9 15;
   Cmp 9 12; Cmp 9 11; Cmp 9 10; Cmp 12 14; Cmp 11 12; Cmp 13 16; Cmp 13 15; Cmp 13 14].
Lemma check18 : check 18%nat 40 swaps18 plan18 = true.
Proof. vm_cast_no_check (eq_refl true). Qed.
Lemma sorts18 : sorts01 18%nat (map pn swaps18).
Proof. eapply check_sound; [vm_compute; reflexivity|exact check18]. Qed.

Definition plan19 : list op :=
  [Cmp 10 13; Cmp 6 17; Cmp 1 4; Cmp 7 11; Rep [1; 4] [(1,4)] [1; 4] 22; Rep [7; 11] [(7,11)] [7; 11]
   24; Cmp 0 12; Cmp 15 16; Rep [10; 13] [(10,13)] [10; 13] 26; Rep [15; 16] [(15,16)] [15; 16] 28;
   Cmp 3 5; Rep [3; 5] [(3,5)] [3; 5] 30; Rep [6; 17] [(6,17)] [6; 17] 32; Cmp 2 8; Rep [0; 12]
   [(0,12)] [0; 12] 34; Rep [2; 8] [(2,8)] [2; 8] 36; Cmp 10 15; Cmp 13 16; Cmp 1 7; Cmp 4 11; Cmp 5
   17; Cmp 3 6; Rep [3; 5; 6; 17] [(3,5); (3,6); (5,17); (6,17)] [5; 6; 3; 17] 38; Rep [10; 13; 15;
   16] [(10,13); (10,15); (13,16); (15,16)] [13; 15; 10; 16] 42; Rep [1; 4; 7; 11] [(1,4); (1,7);
   (4,11); (7,11)] [4; 7; 1; 11] 46; Cmp 0 2; Cmp 8 12; Cmp 9 14; Rep [9; 14] [(9,14)] [9; 14] 50;
   Cmp 11 17; Rep [0; 12; 2; 8] [(0,2); (0,8); (2,12); (8,12)] [2; 12; 0; 8] 52; Cmp 14 18; Rep [9;
   14; 18] [(9,18); (14,18)] [18; 9; 14] 56; Cmp 16 18; Cmp 12 17; Cmp 6 13; Cmp 3 10; Cmp 1 10; Cmp
   4 14; Cmp 4 6; Cmp 2 6; Cmp 5 15; Cmp 7 9; Cmp 0 7; Cmp 0 3; Cmp 3 4; Cmp 5 7; Cmp 9 15; Cmp 2 9;
   Cmp 2 5; Cmp 6 15; Cmp 6 9; Cmp 11 16; Cmp 8 11; Cmp 1 8; Cmp 1 3; Cmp 0 1; Cmp 2 3; Cmp 1 2; Cmp
   10 11; Cmp 8 10; Cmp 4 8; Cmp 5 8; Cmp 4 5; Cmp 6 10; Cmp 12 16; Cmp 12 18; Cmp 13 14; Cmp 7 13;
   Cmp 7 12; Cmp 6 7; Cmp 3 6; Cmp 3 4; Cmp 2 3; Cmp 5 6; Cmp 4 5; Cmp 9 12; Cmp 10 13; Cmp 8 10;
   Cmp 11 14; Cmp 9 11; Cmp 7 9; Cmp 7 8; Cmp 6 7; Cmp 9 10; Cmp 8 9; Cmp 11 12; Cmp 14 15; Cmp 17
   18; Cmp 16 17; Cmp 14 16; Cmp 13 14; Cmp 11 13; Cmp 10 11; Cmp 12 14; Cmp 12 13; Cmp 15 17; Cmp
   15 16; Cmp 14 15].
Lemma check19 : check 19%nat 1 swaps19 plan19 = true.
Proof. vm_cast_no_check (eq_refl true). Qed.
Lemma sorts19 : sorts01 19%nat (map pn swaps19).
Proof. eapply check_sound; [vm_compute; reflexivity|exact check19]. Qed.

Definition plan20 : list op :=
  [Cmp 0 3; Cmp 1 7; Cmp 2 5; Cmp 4 8; Cmp 6 9; Cmp 10 13; Rep [6; 9] [(6,9)] [6; 9] 55; Rep [10; 13]
   [(10,13)] [10; 13] 53; Cmp 11 15; Rep [1; 7] [(1,7)] [1; 7] 51; Rep [11; 15] [(11,15)] [11; 15]
   49; Cmp 12 18; Rep [4; 8] [(4,8)] [4; 8] 47; Rep [12; 18] [(12,18)] [12; 18] 45; Cmp 14 17; Rep
   [0; 3] [(0,3)] [0; 3] 43; Rep [14; 17] [(14,17)] [14; 17] 41; Cmp 16 19; Rep [2; 5] [(2,5)] [2;
   5] 39; Rep [16; 19] [(16,19)] [16; 19] 37; Cmp 0 14; Cmp 3 17; Cmp 1 11; Cmp 7 15; Cmp 2 16; Cmp
   5 19; Rep [1; 7; 11; 15] [(1,7); (1,11); (7,15); (11,15)] [7; 11; 1; 15] 33; Rep [2; 5; 16; 19]
   [(2,5); (2,16); (5,19); (16,19)] [5; 16; 2; 19] 29; Cmp 4 12; Cmp 8 18; Rep [0; 3; 14; 17]
   [(0,3); (0,14); (3,17); (14,17)] [3; 14; 0; 17] 25; Rep [4; 8; 12; 18] [(4,8); (4,12); (8,18);
   (12,18)] [8; 12; 4; 18] 21; Cmp 6 10; Cmp 9 13; Cmp 0 4; Cmp 3 8; Cmp 12 14; Cmp 17 18; Rep [6;
   9; 10; 13] [(6,9); (6,10); (9,13); (10,13)] [9; 10; 6; 13] 17; Rep [0; 3; 14; 17; 4; 8; 12; 18]
   [(0,3); (0,4); (0,12); (3,17); (3,8); (4,14); (4,8); (12,14); (12,17); (14,18); (17,18); (8,18)]
   [3; 14; 4; 18; 17; 0; 12; 8] 9; Cmp 1 2; Cmp 5 7; Cmp 11 16; Cmp 15 19; Rep [1; 7; 11; 15; 2; 5;
   16; 19] [(1,11); (1,2); (1,5); (11,15); (11,16); (2,7); (2,16); (5,7); (5,15); (7,19); (15,19);
   (16,19)] [7; 15; 11; 16; 2; 19; 1; 5] 1; Cmp 1 6; Cmp 0 1; Cmp 2 12; Cmp 2 6; Cmp 1 6; Cmp 3 5;
   Cmp 4 11; Cmp 7 17; Cmp 7 10; Cmp 7 11; Cmp 4 7; Cmp 2 4; Cmp 8 15; Cmp 9 12; Cmp 5 9; Cmp 3 5;
   Cmp 1 3; Cmp 1 2; Cmp 3 4; Cmp 2 3; Cmp 5 7; Cmp 8 12; Cmp 9 11; Cmp 12 15; Cmp 13 18; Cmp 13 17;
   Cmp 14 16; Cmp 10 14; Cmp 8 10; Cmp 6 10; Cmp 6 7; Cmp 4 6; Cmp 10 11; Cmp 14 16; Cmp 12 14; Cmp
   11 14; Cmp 15 17; Cmp 18 19; Cmp 13 18; Cmp 9 13; Cmp 8 9; Cmp 5 8; Cmp 4 5; Cmp 3 4; Cmp 6 8;
   Cmp 5 6; Cmp 7 9; Cmp 12 13; Cmp 10 12; Cmp 7 10; Cmp 7 8; Cmp 9 12; Cmp 9 10; Cmp 16 18; Cmp 15
   16; Cmp 13 15; Cmp 11 13; Cmp 11 12; Cmp 14 15; Cmp 13 14; Cmp 17 18; Cmp 16 17; Cmp 15 16].
Lemma check20 : check 20%nat 58 swaps20 plan20 = true.
Proof. vm_cast_no_check (eq_refl true). Qed.
Lemma sorts20 : sorts01 20%nat (map pn swaps20).
Proof. eapply check_sound; [vm_compute; reflexivity|exact check20]. Qed.

Definition plan21 : list op :=
  [Cmp 0 1; Cmp 2 3; Rep [0; 1] [(0,1)] [0; 1] 24; Rep [2; 3] [(2,3)] [2; 3] 26; Cmp 4 5; Cmp 6 7; Rep
   [4; 5] [(4,5)] [4; 5] 28; Rep [6; 7] [(6,7)] [6; 7] 30; Cmp 8 9; Cmp 10 11; Rep [8; 9] [(8,9)]
   [8; 9] 32; Rep [10; 11] [(10,11)] [10; 11] 34; Cmp 12 13; Cmp 14 15; Rep [12; 13] [(12,13)] [12;
   13] 36; Rep [14; 15] [(14,15)] [14; 15] 38; Cmp 16 17; Cmp 18 19; Rep [16; 17] [(16,17)] [16; 17]
   40; Rep [18; 19] [(18,19)] [18; 19] 42; Cmp 0 2; Cmp 1 3; Cmp 4 6; Cmp 5 7; Cmp 8 10; Cmp 9 11;
   Rep [0; 1; 2; 3] [(0,1); (0,2); (1,3); (2,3)] [1; 2; 0; 3] 44; Rep [8; 9; 10; 11] [(8,9); (8,10);
   (9,11); (10,11)] [9; 10; 8; 11] 48; Cmp 12 14; Cmp 13 15; Rep [4; 5; 6; 7] [(4,5); (4,6); (5,7);
   (6,7)] [5; 6; 4; 7] 52; Rep [12; 13; 14; 15] [(12,13); (12,14); (13,15); (14,15)] [13; 14; 12;
   15] 56; Cmp 16 18; Cmp 17 19; Cmp 0 8; Cmp 1 9; Cmp 2 10; Cmp 3 11; Cmp 4 12; Cmp 5 13; Cmp 6 14;
   Cmp 7 15; Rep [0; 1; 2; 3; 8; 9; 10; 11] [(0,1); (0,2); (0,8); (1,3); (1,9); (2,3); (2,10);
   (8,9); (8,10); (3,11); (9,11); (10,11)] [1; 10; 2; 11; 0; 3; 8; 9] 60; Rep [4; 5; 6; 7; 12; 13;
   14; 15] [(4,5); (4,6); (4,12); (5,7); (5,13); (6,7); (6,14); (12,13); (12,14); (7,15); (13,15);
   (14,15)] [5; 14; 6; 15; 4; 7; 12; 13] 68; Rep [16; 17; 18; 19] [(16,17); (16,18); (17,19);
   (18,19)] [17; 18; 16; 19] 76; Cmp 6 20; Rep [4; 5; 6; 7; 12; 13; 14; 15; 20] [(4,5); (4,12);
   (4,20); (6,7); (6,14); (6,20); (5,7); (5,13); (12,13); (12,14); (7,15); (13,15); (14,15)] [5; 14;
   12; 15; 6; 20; 4; 7; 13] 80; Cmp 15 19; Cmp 0 4; Cmp 1 5; Cmp 2 6; Cmp 2 16; Cmp 0 2; Cmp 3 7;
   Cmp 3 18; Cmp 3 6; Cmp 5 18; Cmp 7 20; Cmp 7 17; Cmp 8 12; Cmp 3 8; Cmp 2 3; Cmp 6 12; Cmp 9 13;
   Cmp 9 16; Cmp 4 9; Cmp 10 14; Cmp 7 10; Cmp 1 7; Cmp 1 4; Cmp 1 2; Cmp 3 4; Cmp 2 3; Cmp 7 8; Cmp
   11 20; Cmp 11 15; Cmp 10 11; Cmp 5 10; Cmp 13 17; Cmp 13 16; Cmp 6 13; Cmp 5 6; Cmp 4 5; Cmp 6 9;
   Cmp 6 7; Cmp 4 6; Cmp 3 4; Cmp 8 9; Cmp 7 8; Cmp 5 7; Cmp 5 6; Cmp 12 16; Cmp 10 12; Cmp 14 18;
   Cmp 11 14; Cmp 11 13; Cmp 10 11; Cmp 8 10; Cmp 7 8; Cmp 12 13; Cmp 9 12; Cmp 9 11; Cmp 9 10; Cmp
   14 16; Cmp 15 18; Cmp 19 20; Cmp 17 19; Cmp 15 17; Cmp 14 15; Cmp 12 14; Cmp 11 12; Cmp 18 19;
   Cmp 17 18; Cmp 16 17; Cmp 15 16; Cmp 13 15; Cmp 13 14].
Lemma check21 : check 21%nat 1 swaps21 plan21 = true.
Proof. vm_cast_no_check (eq_refl true). Qed.
Lemma sorts21 : sorts01 21%nat (map pn swaps21).
Proof. eapply check_sound; [vm_compute; reflexivity|exact check21]. Qed.

Definition plan22 : list op :=
  [Cmp 0 1; Cmp 2 3; Rep [0; 1] [(0,1)] [0; 1] 79; Rep [2; 3] [(2,3)] [2; 3] 77; Cmp 4 5; Cmp 6 7; Rep
   [4; 5] [(4,5)] [4; 5] 75; Rep [6; 7] [(6,7)] [6; 7] 73; Cmp 8 9; Cmp 10 11; Cmp 12 13; Rep [8; 9]
   [(8,9)] [8; 9] 71; Rep [12; 13] [(12,13)] [12; 13] 69; Cmp 14 15; Cmp 16 17; Rep [14; 15]
   [(14,15)] [14; 15] 67; Rep [16; 17] [(16,17)] [16; 17] 65; Cmp 18 19; Cmp 20 21; Rep [18; 19]
   [(18,19)] [18; 19] 63; Rep [20; 21] [(20,21)] [20; 21] 61; Cmp 0 2; Cmp 1 3; Cmp 4 6; Cmp 5 7;
   Rep [0; 1; 2; 3] [(0,1); (0,2); (1,3); (2,3)] [1; 2; 0; 3] 57; Rep [4; 5; 6; 7] [(4,5); (4,6);
   (5,7); (6,7)] [5; 6; 4; 7] 53; Cmp 8 12; Cmp 9 13; Cmp 9 12; Rep [8; 9; 12; 13] [(8,9); (9,12);
   (12,13)] [9; 12; 8; 13] 49; Rep [10; 11] [(10,11)] [10; 11] 47; Cmp 14 16; Cmp 15 17; Cmp 18 20;
   Cmp 19 21; Rep [14; 15; 16; 17] [(14,15); (14,16); (15,17); (16,17)] [15; 16; 14; 17] 43; Rep
   [18; 19; 20; 21] [(18,19); (18,20); (19,21); (20,21)] [19; 20; 18; 21] 39; Cmp 8 10; Cmp 10 12;
   Cmp 11 13; Cmp 9 11; Cmp 0 4; Cmp 1 5; Cmp 2 6; Cmp 3 7; Cmp 14 18; Cmp 15 19; Cmp 16 20; Cmp 17
   21; Rep [0; 1; 2; 3; 4; 5; 6; 7] [(0,1); (0,2); (0,4); (1,3); (1,5); (2,3); (2,6); (4,5); (4,6);
   (3,7); (5,7); (6,7)] [1; 6; 2; 7; 0; 3; 4; 5] 31; Rep [14; 15; 16; 17; 18; 19; 20; 21] [(14,15);
   (14,16); (14,18); (15,17); (15,19); (16,17); (16,20); (18,19); (18,20); (17,21); (19,21);
   (20,21)] [15; 20; 16; 21; 14; 17; 18; 19] 23; Cmp 0 14; Cmp 1 15; Cmp 2 18; Cmp 3 19; Cmp 4 16;
   Cmp 5 17; Cmp 6 20; Cmp 7 21; Rep [0; 1; 2; 3; 4; 5; 6; 7; 14; 15; 16; 17; 18; 19; 20; 21]
   [(0,1); (0,2); (0,4); (0,14); (1,3); (1,5); (1,15); (2,3); (2,6); (2,18); (4,5); (4,6); (4,16);
   (14,15); (14,16); (14,18); (3,7); (3,19); (5,7); (5,17); (6,7); (6,20); (15,17); (15,19);
   (16,17); (16,20); (18,19); (18,20); (7,21); (17,21); (19,21); (20,21)] [3; 16; 7; 5; 1; 19; 15;
   6; 2; 21; 18; 14; 17; 20; 4; 0] 7; Rep [8; 9; 12; 13; 10; 11] [(8,9); (8,10); (9,12); (9,11);
   (10,12); (10,11); (12,13); (11,13)] [9; 12; 8; 13; 10; 11] 1; Cmp 2 8; Cmp 0 2; Cmp 3 11; Cmp 3
   16; Cmp 6 9; Cmp 6 14; Cmp 2 6; Cmp 10 18; Cmp 1 10; Cmp 3 10; Cmp 5 18; Cmp 11 20; Cmp 11 18;
   Cmp 12 15; Cmp 7 15; Cmp 8 12; Cmp 4 8; Cmp 1 4; Cmp 1 2; Cmp 4 6; Cmp 2 4; Cmp 5 12; Cmp 8 14;
   Cmp 3 8; Cmp 10 14; Cmp 5 10; Cmp 5 6; Cmp 3 5; Cmp 3 4; Cmp 13 19; Cmp 9 13; Cmp 9 16; Cmp 9 12;
   Cmp 12 14; Cmp 10 12; Cmp 13 17; Cmp 7 13; Cmp 7 11; Cmp 7 9; Cmp 7 8; Cmp 6 7; Cmp 5 6; Cmp 8
   10; Cmp 7 8; Cmp 11 16; Cmp 9 11; Cmp 9 12; Cmp 9 10; Cmp 13 18; Cmp 13 14; Cmp 11 13; Cmp 11 12;
   Cmp 17 20; Cmp 19 21; Cmp 15 19; Cmp 15 17; Cmp 15 16; Cmp 14 15; Cmp 13 14; Cmp 16 18; Cmp 15
   16; Cmp 19 20; Cmp 17 19; Cmp 17 18].
Lemma check22 : check 22%nat 82 swaps22 plan22 = true.
Proof. vm_cast_no_check (eq_refl true). Qed.
Lemma sorts22 : sorts01 22%nat (map pn swaps22).
Proof. eapply check_sound; [vm_compute; reflexivity|exact check22]. Qed.

Definition plan23 : list op :=
  [Cmp 0 1; Cmp 2 3; Rep [0; 1] [(0,1)] [0; 1] 26; Rep [2; 3] [(2,3)] [2; 3] 28; Cmp 4 5; Cmp 6 7; Rep
   [4; 5] [(4,5)] [4; 5] 30; Rep [6; 7] [(6,7)] [6; 7] 32; Cmp 8 9; Cmp 10 11; Rep [8; 9] [(8,9)]
   [8; 9] 34; Rep [10; 11] [(10,11)] [10; 11] 36; Cmp 12 13; Cmp 14 15; Rep [12; 13] [(12,13)] [12;
   13] 38; Rep [14; 15] [(14,15)] [14; 15] 40; Cmp 16 17; Cmp 18 19; Rep [16; 17] [(16,17)] [16; 17]
   42; Rep [18; 19] [(18,19)] [18; 19] 44; Cmp 20 21; Rep [20; 21] [(20,21)] [20; 21] 46; Cmp 21 22;
   Cmp 0 2; Cmp 1 3; Cmp 4 6; Cmp 5 7; Rep [0; 1; 2; 3] [(0,1); (0,2); (1,3); (2,3)] [1; 2; 0; 3]
   48; Rep [4; 5; 6; 7] [(4,5); (4,6); (5,7); (6,7)] [5; 6; 4; 7] 52; Cmp 8 10; Cmp 9 11; Cmp 12 14;
   Cmp 13 15; Rep [8; 9; 10; 11] [(8,9); (8,10); (9,11); (10,11)] [9; 10; 8; 11] 56; Rep [12; 13;
   14; 15] [(12,13); (12,14); (13,15); (14,15)] [13; 14; 12; 15] 60; Cmp 16 18; Cmp 17 19; Rep [16;
   17; 18; 19] [(16,17); (16,18); (17,19); (18,19)] [17; 18; 16; 19] 64; Rep [20; 21; 22] [(20,22);
   (21,22)] [22; 20; 21] 68; Cmp 17 21; Cmp 18 20; Cmp 19 22; Cmp 0 4; Cmp 1 5; Cmp 2 6; Cmp 3 7;
   Cmp 8 12; Cmp 9 13; Cmp 10 14; Cmp 11 15; Rep [0; 1; 2; 3; 4; 5; 6; 7] [(0,1); (0,2); (0,4);
   (1,3); (1,5); (2,3); (2,6); (4,5); (4,6); (3,7); (5,7); (6,7)] [1; 6; 2; 7; 0; 3; 4; 5] 71; Rep
   [8; 9; 10; 11; 12; 13; 14; 15] [(8,9); (8,10); (8,12); (9,11); (9,13); (10,11); (10,14); (12,13);
   (12,14); (11,15); (13,15); (14,15)] [9; 14; 10; 15; 8; 11; 12; 13] 79; Cmp 0 8; Cmp 1 9; Cmp 2
   10; Cmp 1 2; Cmp 3 11; Cmp 4 12; Cmp 5 13; Cmp 6 14; Cmp 7 15; Rep [16; 17; 18; 19; 20; 21; 22]
   [(16,20); (16,21); (17,19); (17,21); (18,19); (18,20); (19,22); (20,22); (21,22)] [19; 20; 16;
   21; 17; 22; 18] 87; Cmp 5 18; Cmp 7 19; Cmp 6 7; Cmp 9 16; Cmp 5 9; Cmp 6 16; Cmp 10 21; Cmp 10
   18; Cmp 6 10; Cmp 11 21; Cmp 12 20; Cmp 12 17; Cmp 3 17; Cmp 3 4; Cmp 4 10; Cmp 8 12; Cmp 5 8;
   Cmp 0 5; Cmp 1 8; Cmp 4 8; Cmp 9 12; Cmp 2 12; Cmp 2 6; Cmp 3 9; Cmp 3 5; Cmp 1 3; Cmp 2 5; Cmp 2
   3; Cmp 6 9; Cmp 4 6; Cmp 3 4; Cmp 5 6; Cmp 4 5; Cmp 8 9; Cmp 10 12; Cmp 13 20; Cmp 13 16; Cmp 15
   22; Cmp 14 15; Cmp 7 14; Cmp 7 13; Cmp 15 19; Cmp 14 15; Cmp 14 16; Cmp 17 18; Cmp 11 17; Cmp 7
   11; Cmp 7 10; Cmp 7 8; Cmp 6 7; Cmp 9 10; Cmp 8 9; Cmp 14 17; Cmp 12 14; Cmp 16 17; Cmp 20 21;
   Cmp 18 20; Cmp 13 18; Cmp 11 13; Cmp 11 12; Cmp 10 11; Cmp 13 14; Cmp 12 13; Cmp 15 20; Cmp 15
   18; Cmp 15 16; Cmp 14 15; Cmp 19 21; Cmp 19 20; Cmp 17 19; Cmp 17 18; Cmp 16 17].
Lemma check23 : check 23%nat 1 swaps23 plan23 = true.
Proof. vm_cast_no_check (eq_refl true). Qed.
Lemma sorts23 : sorts01 23%nat (map pn swaps23).
Proof. eapply check_sound; [vm_compute; reflexivity|exact check23]. Qed.

Definition plan24 : list op :=
  [Cmp 0 20; Cmp 1 12; Cmp 2 16; Cmp 3 23; Rep [0; 20] [(0,20)] [0; 20] 55; Rep [3; 23] [(3,23)] [3;
   23] 53; Cmp 4 6; Cmp 5 10; Cmp 7 21; Rep [2; 16] [(2,16)] [2; 16] 51; Rep [7; 21] [(7,21)] [7;
   21] 49; Cmp 8 14; Cmp 9 15; Rep [8; 14] [(8,14)] [8; 14] 47; Rep [9; 15] [(9,15)] [9; 15] 45; Cmp
   11 22; Rep [1; 12] [(1,12)] [1; 12] 43; Rep [11; 22] [(11,22)] [11; 22] 41; Cmp 13 18; Rep [5;
   10] [(5,10)] [5; 10] 39; Rep [13; 18] [(13,18)] [13; 18] 37; Cmp 17 19; Rep [4; 6] [(4,6)] [4; 6]
   35; Rep [17; 19] [(17,19)] [17; 19] 33; Cmp 0 3; Cmp 20 23; Cmp 1 11; Cmp 12 22; Rep [0; 20; 3;
   23] [(0,20); (0,3); (20,23); (3,23)] [20; 3; 0; 23] 29; Rep [1; 12; 11; 22] [(1,12); (1,11);
   (12,22); (11,22)] [12; 11; 1; 22] 25; Cmp 2 7; Cmp 16 21; Cmp 4 17; Cmp 6 19; Rep [2; 16; 7; 21]
   [(2,16); (2,7); (16,21); (7,21)] [16; 7; 2; 21] 21; Rep [4; 6; 17; 19] [(4,6); (4,17); (6,19);
   (17,19)] [6; 17; 4; 19] 17; Cmp 5 13; Cmp 10 18; Rep [5; 10; 13; 18] [(5,10); (5,13); (10,18);
   (13,18)] [10; 13; 5; 18] 13; Cmp 8 9; Cmp 14 15; Rep [8; 14; 9; 15] [(8,14); (8,9); (14,15);
   (9,15)] [14; 9; 8; 15] 9; Cmp 0 1; Cmp 3 12; Cmp 11 20; Cmp 22 23; Cmp 2 4; Cmp 19 21; Cmp 5 8;
   Cmp 15 18; Cmp 2 5; Cmp 4 8; Cmp 6 9; Cmp 7 10; Cmp 13 16; Cmp 9 16; Cmp 14 17; Cmp 7 14; Cmp 4
   7; Cmp 15 19; Cmp 16 19; Cmp 18 21; Rep [0; 20; 3; 23; 1; 12; 11; 22] [(0,3); (0,1); (0,11);
   (3,12); (3,22); (1,20); (1,12); (11,20); (11,22); (20,23); (12,23); (22,23)] [20; 12; 3; 23; 11;
   22; 0; 1] 1; Cmp 0 7; Cmp 0 2; Cmp 1 8; Cmp 1 5; Cmp 3 14; Cmp 3 4; Cmp 2 3; Cmp 4 7; Cmp 6 11;
   Cmp 9 20; Cmp 9 14; Cmp 5 9; Cmp 4 5; Cmp 7 9; Cmp 11 13; Cmp 6 11; Cmp 1 6; Cmp 1 2; Cmp 12 17;
   Cmp 10 12; Cmp 10 13; Cmp 12 17; Cmp 15 22; Cmp 8 15; Cmp 8 10; Cmp 6 8; Cmp 3 6; Cmp 2 3; Cmp 7
   8; Cmp 6 7; Cmp 10 11; Cmp 4 10; Cmp 3 4; Cmp 4 6; Cmp 5 10; Cmp 5 7; Cmp 5 6; Cmp 9 11; Cmp 8 9;
   Cmp 13 15; Cmp 12 13; Cmp 16 23; Cmp 18 22; Cmp 14 18; Cmp 17 22; Cmp 15 17; Cmp 19 20; Cmp 16
   19; Cmp 14 16; Cmp 12 14; Cmp 10 12; Cmp 8 10; Cmp 7 8; Cmp 9 12; Cmp 9 10; Cmp 15 16; Cmp 14 15;
   Cmp 18 19; Cmp 13 19; Cmp 13 18; Cmp 11 13; Cmp 11 14; Cmp 11 12; Cmp 13 15; Cmp 13 14; Cmp 21
   23; Cmp 20 21; Cmp 17 20; Cmp 16 17; Cmp 16 18; Cmp 15 16; Cmp 21 22; Cmp 20 21; Cmp 19 20; Cmp
   17 19; Cmp 17 18].
Lemma check24 : check 24%nat 58 swaps24 plan24 = true.
Proof. vm_cast_no_check (eq_refl true). Qed.
Lemma sorts24 : sorts01 24%nat (map pn swaps24).
Proof. eapply check_sound; [vm_compute; reflexivity|exact check24]. Qed.

Definition plan25 : list op :=
  [Cmp 0 1; Cmp 2 3; Rep [0; 1] [(0,1)] [0; 1] 67; Rep [2; 3] [(2,3)] [2; 3] 65; Cmp 4 5; Cmp 6 7; Rep
   [4; 5] [(4,5)] [4; 5] 63; Rep [6; 7] [(6,7)] [6; 7] 61; Cmp 8 9; Cmp 10 11; Rep [8; 9] [(8,9)]
   [8; 9] 59; Rep [10; 11] [(10,11)] [10; 11] 57; Cmp 12 13; Cmp 14 15; Rep [12; 13] [(12,13)] [12;
   13] 55; Rep [14; 15] [(14,15)] [14; 15] 53; Cmp 16 17; Cmp 18 19; Rep [16; 17] [(16,17)] [16; 17]
   51; Rep [18; 19] [(18,19)] [18; 19] 49; Cmp 20 21; Cmp 22 23; Rep [20; 21] [(20,21)] [20; 21] 47;
   Rep [22; 23] [(22,23)] [22; 23] 45; Cmp 23 24; Rep [22; 23; 24] [(22,24); (23,24)] [24; 22; 23]
   42; Cmp 0 2; Cmp 1 3; Cmp 4 6; Cmp 5 7; Rep [0; 1; 2; 3] [(0,1); (0,2); (1,3); (2,3)] [1; 2; 0;
   3] 38; Rep [4; 5; 6; 7] [(4,5); (4,6); (5,7); (6,7)] [5; 6; 4; 7] 34; Cmp 8 10; Cmp 9 11; Cmp 12
   14; Cmp 13 15; Rep [8; 9; 10; 11] [(8,9); (8,10); (9,11); (10,11)] [9; 10; 8; 11] 30; Rep [12;
   13; 14; 15] [(12,13); (12,14); (13,15); (14,15)] [13; 14; 12; 15] 26; Cmp 16 18; Cmp 17 19; Cmp
   20 23; Cmp 21 22; Cmp 22 24; Rep [16; 17; 18; 19] [(16,17); (16,18); (17,19); (18,19)] [17; 18;
   16; 19] 22; Rep [20; 21; 22; 23; 24] [(20,22); (20,23); (21,22); (23,24); (22,24)] [22; 23; 20;
   24; 21] 17; Cmp 0 4; Cmp 1 5; Cmp 2 6; Cmp 3 7; Cmp 8 12; Cmp 9 13; Cmp 10 14; Cmp 11 15; Rep [0;
   1; 2; 3; 4; 5; 6; 7] [(0,1); (0,2); (0,4); (1,3); (1,5); (2,3); (2,6); (4,5); (4,6); (3,7);
   (5,7); (6,7)] [1; 6; 2; 7; 0; 3; 4; 5] 9; Rep [8; 9; 10; 11; 12; 13; 14; 15] [(8,9); (8,10);
   (8,12); (9,11); (9,13); (10,11); (10,14); (12,13); (12,14); (11,15); (13,15); (14,15)] [9; 14;
   10; 15; 8; 11; 12; 13] 1; Cmp 16 20; Cmp 17 22; Cmp 18 21; Cmp 19 24; Cmp 21 23; Cmp 0 8; Cmp 1
   9; Cmp 2 10; Cmp 3 11; Cmp 4 12; Cmp 5 13; Cmp 6 14; Cmp 7 15; Cmp 11 14; Cmp 7 11; Cmp 1 18; Cmp
   1 16; Cmp 0 1; Cmp 2 16; Cmp 1 2; Cmp 3 21; Cmp 3 17; Cmp 3 8; Cmp 5 23; Cmp 6 19; Cmp 6 9; Cmp 7
   20; Cmp 7 18; Cmp 4 7; Cmp 3 4; Cmp 1 3; Cmp 2 4; Cmp 2 3; Cmp 7 8; Cmp 9 18; Cmp 11 22; Cmp 11
   21; Cmp 11 12; Cmp 11 16; Cmp 13 19; Cmp 10 13; Cmp 5 10; Cmp 5 6; Cmp 5 11; Cmp 6 16; Cmp 10 17;
   Cmp 9 10; Cmp 7 9; Cmp 5 7; Cmp 3 5; Cmp 6 9; Cmp 4 6; Cmp 8 10; Cmp 8 11; Cmp 7 8; Cmp 4 7; Cmp
   4 5; Cmp 6 8; Cmp 6 7; Cmp 9 11; Cmp 10 16; Cmp 12 17; Cmp 13 21; Cmp 13 18; Cmp 12 13; Cmp 14
   23; Cmp 15 24; Cmp 15 23; Cmp 15 20; Cmp 14 15; Cmp 15 18; Cmp 15 17; Cmp 15 16; Cmp 17 18; Cmp
   19 22; Cmp 19 20; Cmp 19 21; Cmp 14 19; Cmp 12 14; Cmp 10 12; Cmp 9 10; Cmp 8 9; Cmp 11 12; Cmp
   10 11; Cmp 13 14; Cmp 13 15; Cmp 12 13; Cmp 14 16; Cmp 14 15; Cmp 17 19; Cmp 16 17; Cmp 18 21;
   Cmp 18 19; Cmp 22 23; Cmp 20 22; Cmp 20 21].
Lemma check25 : check 25%nat 70 swaps25 plan25 = true.
Proof. vm_cast_no_check (eq_refl true). Qed.
Lemma sorts25 : sorts01 25%nat (map pn swaps25).
Proof. eapply check_sound; [vm_compute; reflexivity|exact check25]. Qed.

Definition plan26 : list op :=
  [Cmp 0 1; Cmp 2 3; Cmp 4 21; Rep [2; 3] [(2,3)] [2; 3] 77; Rep [4; 21] [(4,21)] [4; 21] 75; Cmp 5 6;
   Cmp 7 8; Rep [5; 6] [(5,6)] [5; 6] 73; Rep [7; 8] [(7,8)] [7; 8] 71; Cmp 9 10; Cmp 11 12; Rep [9;
   10] [(9,10)] [9; 10] 69; Rep [11; 12] [(11,12)] [11; 12] 67; Cmp 13 14; Cmp 15 16; Rep [13; 14]
   [(13,14)] [13; 14] 65; Rep [15; 16] [(15,16)] [15; 16] 63; Cmp 17 18; Cmp 19 20; Rep [17; 18]
   [(17,18)] [17; 18] 61; Rep [19; 20] [(19,20)] [19; 20] 59; Cmp 22 23; Rep [22; 23] [(22,23)] [22;
   23] 57; Cmp 24 25; Rep [0; 1] [(0,1)] [0; 1] 55; Rep [24; 25] [(24,25)] [24; 25] 53; Cmp 0 24;
   Cmp 1 25; Cmp 3 21; Rep [0; 1; 24; 25] [(0,1); (0,24); (1,25); (24,25)] [1; 24; 0; 25] 49; Cmp 5
   7; Cmp 6 8; Cmp 9 11; Cmp 10 12; Rep [5; 6; 7; 8] [(5,6); (5,7); (6,8); (7,8)] [6; 7; 5; 8] 45;
   Rep [9; 10; 11; 12] [(9,10); (9,11); (10,12); (11,12)] [10; 11; 9; 12] 41; Cmp 13 15; Cmp 14 16;
   Cmp 17 19; Cmp 18 20; Rep [13; 14; 15; 16] [(13,14); (13,15); (14,16); (15,16)] [14; 15; 13; 16]
   37; Rep [17; 18; 19; 20] [(17,18); (17,19); (18,20); (19,20)] [18; 19; 17; 20] 33; Cmp 3 23; Cmp
   4 22; Cmp 2 22; Cmp 5 9; Cmp 6 10; Cmp 7 11; Cmp 8 12; Cmp 13 17; Cmp 14 18; Cmp 15 19; Cmp 16
   20; Rep [5; 6; 7; 8; 9; 10; 11; 12] [(5,6); (5,7); (5,9); (6,8); (6,10); (7,8); (7,11); (9,10);
   (9,11); (8,12); (10,12); (11,12)] [6; 11; 7; 12; 5; 8; 9; 10] 25; Rep [13; 14; 15; 16; 17; 18;
   19; 20] [(13,14); (13,15); (13,17); (14,16); (14,18); (15,16); (15,19); (17,18); (17,19);
   (16,20); (18,20); (19,20)] [14; 19; 15; 20; 13; 16; 17; 18] 17; Cmp 0 4; Cmp 0 2; Cmp 1 3; Cmp 21
   25; Cmp 4 21; Cmp 2 4; Cmp 22 24; Cmp 23 25; Cmp 21 23; Cmp 5 13; Cmp 6 14; Cmp 7 15; Cmp 8 16;
   Cmp 9 17; Cmp 10 18; Cmp 11 19; Cmp 12 20; Rep [5; 6; 7; 8; 9; 10; 11; 12; 13; 14; 15; 16; 17;
   18; 19; 20] [(5,6); (5,7); (5,9); (5,13); (6,8); (6,10); (6,14); (7,8); (7,11); (7,15); (9,10);
   (9,11); (9,17); (13,14); (13,15); (13,17); (8,12); (8,16); (10,12); (10,18); (11,12); (11,19);
   (14,16); (14,18); (15,16); (15,19); (17,18); (17,19); (12,20); (16,20); (18,20); (19,20)] [8; 17;
   12; 10; 6; 16; 14; 11; 7; 20; 15; 13; 18; 19; 9; 5] 1; Cmp 0 5; Cmp 1 7; Cmp 2 9; Cmp 3 10; Cmp 3
   7; Cmp 4 14; Cmp 5 13; Cmp 1 5; Cmp 7 17; Cmp 4 7; Cmp 10 19; Cmp 11 21; Cmp 11 13; Cmp 5 11; Cmp
   15 22; Cmp 6 15; Cmp 2 6; Cmp 1 2; Cmp 3 15; Cmp 4 6; Cmp 4 5; Cmp 2 4; Cmp 6 11; Cmp 13 15; Cmp
   16 23; Cmp 16 17; Cmp 7 16; Cmp 18 24; Cmp 18 22; Cmp 8 18; Cmp 8 9; Cmp 3 8; Cmp 3 6; Cmp 3 4;
   Cmp 8 11; Cmp 5 8; Cmp 10 22; Cmp 17 22; Cmp 18 21; Cmp 9 18; Cmp 7 9; Cmp 16 18; Cmp 19 23; Cmp
   19 21; Cmp 20 25; Cmp 12 20; Cmp 12 14; Cmp 10 12; Cmp 10 13; Cmp 7 10; Cmp 6 7; Cmp 5 6; Cmp 4
   5; Cmp 7 8; Cmp 6 7; Cmp 12 15; Cmp 9 12; Cmp 9 10; Cmp 13 16; Cmp 11 13; Cmp 9 11; Cmp 8 9; Cmp
   10 13; Cmp 10 11; Cmp 15 18; Cmp 15 16; Cmp 20 24; Cmp 14 20; Cmp 14 19; Cmp 14 17; Cmp 12 14;
   Cmp 12 15; Cmp 12 13; Cmp 14 16; Cmp 14 15; Cmp 19 22; Cmp 18 19; Cmp 20 21; Cmp 17 20; Cmp 17
   18; Cmp 16 17; Cmp 19 20; Cmp 18 19; Cmp 23 24; Cmp 21 23; Cmp 21 22; Cmp 20 21].
Lemma check26 : check 26%nat 80 swaps26 plan26 = true.
Proof. vm_cast_no_check (eq_refl true). Qed.
Lemma sorts26 : sorts01 26%nat (map pn swaps26).
Proof. eapply check_sound; [vm_compute; reflexivity|exact check26]. Qed.

Definition plan27 : list op :=
  [Cmp 0 1; Cmp 2 3; Rep [0; 1] [(0,1)] [0; 1] 30; Rep [2; 3] [(2,3)] [2; 3] 32; Cmp 4 5; Cmp 6 7; Rep
   [4; 5] [(4,5)] [4; 5] 34; Rep [6; 7] [(6,7)] [6; 7] 36; Cmp 8 9; Cmp 10 11; Rep [8; 9] [(8,9)]
   [8; 9] 38; Rep [10; 11] [(10,11)] [10; 11] 40; Cmp 12 14; Rep [12; 14] [(12,14)] [12; 14] 42; Cmp
   15 16; Cmp 17 18; Rep [15; 16] [(15,16)] [15; 16] 44; Rep [17; 18] [(17,18)] [17; 18] 46; Cmp 19
   20; Cmp 21 22; Rep [19; 20] [(19,20)] [19; 20] 48; Rep [21; 22] [(21,22)] [21; 22] 50; Cmp 23 24;
   Cmp 25 26; Rep [23; 24] [(23,24)] [23; 24] 52; Rep [25; 26] [(25,26)] [25; 26] 54; Cmp 12 13; Cmp
   13 14; Cmp 0 2; Cmp 1 3; Cmp 4 6; Cmp 5 7; Cmp 8 10; Cmp 9 11; Rep [4; 5; 6; 7] [(4,5); (4,6);
   (5,7); (6,7)] [5; 6; 4; 7] 56; Rep [8; 9; 10; 11] [(8,9); (8,10); (9,11); (10,11)] [9; 10; 8; 11]
   60; Cmp 15 17; Cmp 16 18; Cmp 19 21; Cmp 20 22; Rep [15; 16; 17; 18] [(15,16); (15,17); (16,18);
   (17,18)] [16; 17; 15; 18] 64; Rep [19; 20; 21; 22] [(19,20); (19,21); (20,22); (21,22)] [20; 21;
   19; 22] 68; Cmp 23 25; Cmp 24 26; Rep [0; 1; 2; 3] [(0,1); (0,2); (1,3); (2,3)] [1; 2; 0; 3] 72;
   Rep [23; 24; 25; 26] [(23,24); (23,25); (24,26); (25,26)] [24; 25; 23; 26] 76; Cmp 0 23; Cmp 1
   24; Cmp 2 25; Cmp 3 26; Cmp 4 8; Cmp 5 9; Cmp 6 10; Cmp 7 11; Rep [0; 1; 2; 3; 23; 24; 25; 26]
   [(0,1); (0,2); (0,23); (1,3); (1,24); (2,3); (2,25); (23,24); (23,25); (3,26); (24,26); (25,26)]
   [1; 25; 2; 26; 0; 3; 23; 24] 80; Rep [4; 5; 6; 7; 8; 9; 10; 11] [(4,5); (4,6); (4,8); (5,7);
   (5,9); (6,7); (6,10); (8,9); (8,10); (7,11); (9,11); (10,11)] [5; 10; 6; 11; 4; 7; 8; 9] 88; Rep
   [12; 14; 13] [(12,13); (13,14)] [13; 14; 12] 96; Cmp 15 19; Cmp 16 20; Cmp 17 21; Cmp 18 22; Rep
   [15; 16; 17; 18; 19; 20; 21; 22] [(15,16); (15,17); (15,19); (16,18); (16,20); (17,18); (17,21);
   (19,20); (19,21); (18,22); (20,22); (21,22)] [16; 21; 17; 22; 15; 18; 19; 20] 99; Cmp 5 13; Cmp
   11 14; Cmp 2 19; Cmp 3 20; Cmp 17 23; Cmp 18 24; Cmp 22 26; Cmp 0 4; Cmp 1 6; Cmp 5 17; Cmp 7 22;
   Cmp 7 23; Cmp 9 21; Cmp 9 25; Cmp 10 24; Cmp 10 19; Cmp 10 17; Cmp 12 16; Cmp 6 16; Cmp 11 16;
   Cmp 8 11; Cmp 2 8; Cmp 2 5; Cmp 3 11; Cmp 3 17; Cmp 3 10; Cmp 11 23; Cmp 12 15; Cmp 1 12; Cmp 0
   1; Cmp 4 15; Cmp 1 4; Cmp 1 2; Cmp 6 12; Cmp 5 6; Cmp 4 5; Cmp 2 4; Cmp 9 15; Cmp 6 9; Cmp 3 6;
   Cmp 9 10; Cmp 12 15; Cmp 11 15; Cmp 13 20; Cmp 13 18; Cmp 8 13; Cmp 7 13; Cmp 7 8; Cmp 5 7; Cmp 3
   5; Cmp 7 9; Cmp 8 12; Cmp 6 8; Cmp 5 6; Cmp 4 5; Cmp 3 4; Cmp 6 7; Cmp 5 6; Cmp 10 12; Cmp 9 10;
   Cmp 13 17; Cmp 11 13; Cmp 14 26; Cmp 15 17; Cmp 16 21; Cmp 18 19; Cmp 18 23; Cmp 19 23; Cmp 20
   24; Cmp 14 24; Cmp 14 20; Cmp 22 25; Cmp 16 22; Cmp 21 25; Cmp 21 22; Cmp 14 21; Cmp 14 16; Cmp
   14 18; Cmp 11 14; Cmp 8 11; Cmp 8 9; Cmp 7 8; Cmp 10 11; Cmp 9 10; Cmp 12 14; Cmp 15 18; Cmp 16
   19; Cmp 13 16; Cmp 13 15; Cmp 12 13; Cmp 11 12; Cmp 14 15; Cmp 13 14; Cmp 17 19; Cmp 17 18; Cmp
   16 17; Cmp 15 16; Cmp 20 22; Cmp 21 23; Cmp 20 21; Cmp 18 20; Cmp 17 18; Cmp 19 21; Cmp 19 20;
   Cmp 24 25; Cmp 22 24; Cmp 22 23; Cmp 21 22].
Lemma check27 : check 27%nat 1 swaps27 plan27 = true.
Proof. vm_cast_no_check (eq_refl true). Qed.
Lemma sorts27 : sorts01 27%nat (map pn swaps27).
Proof. eapply check_sound; [vm_compute; reflexivity|exact check27]. Qed.

Definition plan28 : list op :=
  [Cmp 0 1; Cmp 2 3; Rep [0; 1] [(0,1)] [0; 1] 83; Rep [2; 3] [(2,3)] [2; 3] 81; Cmp 4 5; Cmp 6 7; Rep
   [4; 5] [(4,5)] [4; 5] 79; Rep [6; 7] [(6,7)] [6; 7] 77; Cmp 8 9; Cmp 10 11; Rep [8; 9] [(8,9)]
   [8; 9] 75; Rep [10; 11] [(10,11)] [10; 11] 73; Cmp 12 13; Cmp 14 15; Rep [12; 13] [(12,13)] [12;
   13] 71; Rep [14; 15] [(14,15)] [14; 15] 69; Cmp 16 17; Cmp 18 19; Rep [16; 17] [(16,17)] [16; 17]
   67; Rep [18; 19] [(18,19)] [18; 19] 65; Cmp 20 21; Cmp 22 23; Rep [20; 21] [(20,21)] [20; 21] 63;
   Rep [22; 23] [(22,23)] [22; 23] 61; Cmp 24 25; Cmp 26 27; Rep [24; 25] [(24,25)] [24; 25] 59; Rep
   [26; 27] [(26,27)] [26; 27] 57; Cmp 0 2; Cmp 1 3; Cmp 4 6; Cmp 5 7; Rep [0; 1; 2; 3] [(0,1);
   (0,2); (1,3); (2,3)] [1; 2; 0; 3] 53; Rep [4; 5; 6; 7] [(4,5); (4,6); (5,7); (6,7)] [5; 6; 4; 7]
   49; Cmp 8 10; Cmp 9 11; Cmp 12 14; Cmp 13 15; Rep [8; 9; 10; 11] [(8,9); (8,10); (9,11); (10,11)]
   [9; 10; 8; 11] 45; Rep [12; 13; 14; 15] [(12,13); (12,14); (13,15); (14,15)] [13; 14; 12; 15] 41;
   Cmp 16 18; Cmp 17 19; Rep [16; 17; 18; 19] [(16,17); (16,18); (17,19); (18,19)] [17; 18; 16; 19]
   37; Cmp 20 22; Cmp 21 23; Cmp 24 26; Cmp 25 27; Rep [20; 21; 22; 23] [(20,21); (20,22); (21,23);
   (22,23)] [21; 22; 20; 23] 33; Rep [24; 25; 26; 27] [(24,25); (24,26); (25,27); (26,27)] [25; 26;
   24; 27] 29; Cmp 0 4; Cmp 1 5; Cmp 2 6; Cmp 3 7; Cmp 8 12; Cmp 9 13; Cmp 20 24; Cmp 21 25; Cmp 22
   26; Cmp 23 27; Rep [0; 1; 2; 3; 4; 5; 6; 7] [(0,1); (0,2); (0,4); (1,3); (1,5); (2,3); (2,6);
   (4,5); (4,6); (3,7); (5,7); (6,7)] [1; 6; 2; 7; 0; 3; 4; 5] 21; Rep [20; 21; 22; 23; 24; 25; 26;
   27] [(20,21); (20,22); (20,24); (21,23); (21,25); (22,23); (22,26); (24,25); (24,26); (23,27);
   (25,27); (26,27)] [21; 26; 22; 27; 20; 23; 24; 25] 13; Cmp 9 17; Cmp 12 16; Cmp 8 12; Cmp 9 16;
   Cmp 13 17; Cmp 14 18; Cmp 10 18; Cmp 10 14; Cmp 15 19; Cmp 11 15; Cmp 11 18; Cmp 15 19; Cmp 0 20;
   Cmp 1 21; Cmp 2 22; Cmp 1 2; Cmp 3 23; Cmp 4 24; Cmp 4 20; Cmp 5 25; Cmp 6 26; Cmp 5 6; Cmp 3 5;
   Cmp 7 27; Cmp 7 23; Cmp 21 22; Cmp 22 24; Cmp 25 26; Rep [8; 9; 10; 11; 12; 13; 14; 15; 16; 17;
   18; 19] [(8,9); (8,10); (8,12); (9,11); (9,13); (9,16); (10,11); (10,14); (12,13); (12,14);
   (12,16); (11,15); (11,18); (13,15); (13,17); (14,15); (14,18); (16,17); (16,18); (17,19);
   (15,19); (18,19)] [11; 13; 12; 18; 14; 10; 19; 16; 9; 8; 15; 17] 1; Cmp 0 8; Cmp 1 9; Cmp 2 12;
   Cmp 4 10; Cmp 2 4; Cmp 6 16; Cmp 7 13; Cmp 3 7; Cmp 10 22; Cmp 6 10; Cmp 4 6; Cmp 11 21; Cmp 9
   11; Cmp 3 9; Cmp 14 20; Cmp 8 14; Cmp 1 8; Cmp 1 2; Cmp 4 8; Cmp 2 4; Cmp 15 25; Cmp 7 15; Cmp 17
   23; Cmp 5 17; Cmp 5 11; Cmp 5 9; Cmp 17 21; Cmp 11 17; Cmp 7 11; Cmp 18 26; Cmp 16 18; Cmp 16 22;
   Cmp 10 16; Cmp 19 27; Cmp 13 19; Cmp 13 15; Cmp 13 17; Cmp 19 26; Cmp 20 24; Cmp 12 20; Cmp 12
   14; Cmp 6 12; Cmp 6 8; Cmp 10 14; Cmp 9 14; Cmp 10 12; Cmp 3 10; Cmp 3 6; Cmp 3 4; Cmp 5 12; Cmp
   5 8; Cmp 5 6; Cmp 16 20; Cmp 7 16; Cmp 7 9; Cmp 7 10; Cmp 7 8; Cmp 9 12; Cmp 9 10; Cmp 11 20; Cmp
   14 16; Cmp 18 24; Cmp 18 22; Cmp 13 18; Cmp 11 13; Cmp 11 14; Cmp 11 12; Cmp 13 16; Cmp 13 14;
   Cmp 18 20; Cmp 23 25; Cmp 21 23; Cmp 15 21; Cmp 15 17; Cmp 15 22; Cmp 15 18; Cmp 15 16; Cmp 17
   24; Cmp 17 20; Cmp 17 18; Cmp 19 23; Cmp 19 21; Cmp 19 22; Cmp 19 20; Cmp 21 24; Cmp 21 22; Cmp
   25 26; Cmp 23 25; Cmp 23 24].
Lemma check28 : check 28%nat 86 swaps28 plan28 = true.
Proof. vm_cast_no_check (eq_refl true). Qed.
Lemma sorts28 : sorts01 28%nat (map pn swaps28).
Proof. eapply check_sound; [vm_compute; reflexivity|exact check28]. Qed.

Definition plan29 : list op :=
  [Cmp 0 1; Cmp 2 3; Rep [0; 1] [(0,1)] [0; 1] 32; Rep [2; 3] [(2,3)] [2; 3] 34; Cmp 4 5; Cmp 6 7; Rep
   [4; 5] [(4,5)] [4; 5] 36; Rep [6; 7] [(6,7)] [6; 7] 38; Cmp 8 9; Cmp 10 11; Rep [8; 9] [(8,9)]
   [8; 9] 40; Rep [10; 11] [(10,11)] [10; 11] 42; Cmp 12 13; Cmp 14 15; Rep [12; 13] [(12,13)] [12;
   13] 44; Rep [14; 15] [(14,15)] [14; 15] 46; Cmp 16 28; Cmp 17 26; Cmp 18 25; Cmp 19 23; Rep [18;
   25] [(18,25)] [18; 25] 48; Rep [19; 23] [(19,23)] [19; 23] 50; Cmp 21 27; Rep [21; 27] [(21,27)]
   [21; 27] 52; Cmp 22 24; Rep [17; 26] [(17,26)] [17; 26] 54; Rep [22; 24] [(22,24)] [22; 24] 56;
   Cmp 20 27; Rep [16; 28] [(16,28)] [16; 28] 58; Rep [20; 21; 27] [(20,27); (21,27)] [27; 20; 21]
   60; Cmp 0 2; Cmp 1 3; Cmp 4 6; Cmp 5 7; Rep [0; 1; 2; 3] [(0,1); (0,2); (1,3); (2,3)] [1; 2; 0;
   3] 63; Rep [4; 5; 6; 7] [(4,5); (4,6); (5,7); (6,7)] [5; 6; 4; 7] 67; Cmp 8 10; Cmp 9 11; Cmp 12
   14; Cmp 13 15; Rep [8; 9; 10; 11] [(8,9); (8,10); (9,11); (10,11)] [9; 10; 8; 11] 71; Rep [12;
   13; 14; 15] [(12,13); (12,14); (13,15); (14,15)] [13; 14; 12; 15] 75; Cmp 17 22; Cmp 24 26; Cmp
   18 19; Cmp 23 25; Rep [17; 26; 22; 24] [(17,22); (17,24); (22,26); (24,26)] [22; 26; 17; 24] 79;
   Rep [18; 25; 19; 23] [(18,19); (18,23); (19,25); (23,25)] [19; 25; 18; 23] 83; Cmp 16 20; Cmp 27
   28; Cmp 0 4; Cmp 1 5; Cmp 2 6; Cmp 3 7; Cmp 8 12; Cmp 9 13; Cmp 10 14; Cmp 11 15; Rep [0; 1; 2;
   3; 4; 5; 6; 7] [(0,1); (0,2); (0,4); (1,3); (1,5); (2,3); (2,6); (4,5); (4,6); (3,7); (5,7);
   (6,7)] [1; 6; 2; 7; 0; 3; 4; 5] 87; Rep [8; 9; 10; 11; 12; 13; 14; 15] [(8,9); (8,10); (8,12);
   (9,11); (9,13); (10,11); (10,14); (12,13); (12,14); (11,15); (13,15); (14,15)] [9; 14; 10; 15; 8;
   11; 12; 13] 95; Cmp 17 18; Cmp 19 22; Cmp 23 24; Cmp 25 26; Rep [16; 28; 20; 21; 27] [(16,20);
   (16,27); (21,28); (20,28); (27,28)] [20; 28; 16; 21; 27] 103; Rep [17; 26; 22; 24; 18; 25; 19;
   23] [(17,18); (17,19); (17,23); (18,22); (18,24); (19,22); (19,25); (23,24); (23,25); (22,26);
   (24,26); (25,26)] [22; 24; 23; 26; 25; 19; 17; 18] 108; Cmp 16 18; Cmp 16 17; Cmp 20 22; Cmp 21
   25; Cmp 24 27; Cmp 26 28; Cmp 0 8; Cmp 1 9; Cmp 1 8; Cmp 2 10; Cmp 3 11; Cmp 4 12; Cmp 5 13; Cmp
   6 14; Cmp 7 15; Cmp 2 24; Cmp 3 24; Cmp 4 19; Cmp 2 4; Cmp 4 8; Cmp 5 20; Cmp 6 21; Cmp 0 6; Cmp
   0 16; Cmp 1 6; Cmp 2 16; Cmp 7 27; Cmp 7 24; Cmp 9 18; Cmp 6 9; Cmp 6 16; Cmp 10 23; Cmp 5 10;
   Cmp 5 17; Cmp 1 5; Cmp 1 2; Cmp 8 17; Cmp 4 8; Cmp 4 6; Cmp 2 4; Cmp 9 17; Cmp 9 16; Cmp 8 9; Cmp
   11 26; Cmp 12 19; Cmp 3 12; Cmp 3 10; Cmp 3 5; Cmp 3 6; Cmp 3 4; Cmp 5 9; Cmp 5 8; Cmp 10 12; Cmp
   13 22; Cmp 13 18; Cmp 14 25; Cmp 14 21; Cmp 15 28; Cmp 15 25; Cmp 18 21; Cmp 7 18; Cmp 20 23; Cmp
   14 20; Cmp 13 14; Cmp 10 13; Cmp 14 20; Cmp 12 14; Cmp 19 23; Cmp 11 19; Cmp 7 11; Cmp 7 16; Cmp
   7 10; Cmp 6 7; Cmp 5 6; Cmp 4 5; Cmp 7 8; Cmp 6 7; Cmp 12 16; Cmp 9 12; Cmp 19 24; Cmp 11 19; Cmp
   11 17; Cmp 11 13; Cmp 10 11; Cmp 9 10; Cmp 8 9; Cmp 11 12; Cmp 10 11; Cmp 14 17; Cmp 13 14; Cmp
   21 23; Cmp 20 21; Cmp 23 24; Cmp 26 27; Cmp 15 26; Cmp 15 22; Cmp 15 18; Cmp 15 19; Cmp 15 20;
   Cmp 15 16; Cmp 13 15; Cmp 12 13; Cmp 14 16; Cmp 14 15; Cmp 17 20; Cmp 18 23; Cmp 19 21; Cmp 18
   19; Cmp 17 18; Cmp 16 17; Cmp 19 20; Cmp 18 19; Cmp 21 23; Cmp 25 27; Cmp 22 27; Cmp 25 26; Cmp
   22 26; Cmp 24 25; Cmp 22 24; Cmp 21 22; Cmp 20 21; Cmp 22 23; Cmp 24 25].
Lemma check29 : check 29%nat 1 swaps29 plan29 = true.
Proof. vm_cast_no_check (eq_refl true). Qed.
Lemma sorts29 : sorts01 29%nat (map pn swaps29).
Proof. eapply check_sound; [vm_compute; reflexivity|exact check29]. Qed.

Definition plan30 : list op :=
  [Cmp 0 1; Cmp 2 3; Rep [0; 1] [(0,1)] [0; 1] 69; Rep [2; 3] [(2,3)] [2; 3] 67; Cmp 4 5; Cmp 6 7; Rep
   [4; 5] [(4,5)] [4; 5] 65; Rep [6; 7] [(6,7)] [6; 7] 63; Cmp 8 9; Cmp 10 11; Rep [8; 9] [(8,9)]
   [8; 9] 61; Rep [10; 11] [(10,11)] [10; 11] 59; Cmp 12 13; Cmp 14 15; Rep [12; 13] [(12,13)] [12;
   13] 57; Rep [14; 15] [(14,15)] [14; 15] 55; Cmp 16 17; Rep [16; 17] [(16,17)] [16; 17] 53; Cmp 18
   19; Cmp 20 21; Rep [18; 19] [(18,19)] [18; 19] 51; Rep [20; 21] [(20,21)] [20; 21] 49; Cmp 22 23;
   Cmp 24 25; Rep [22; 23] [(22,23)] [22; 23] 47; Rep [24; 25] [(24,25)] [24; 25] 45; Cmp 26 27; Cmp
   28 29; Rep [26; 27] [(26,27)] [26; 27] 43; Rep [28; 29] [(28,29)] [28; 29] 41; Cmp 0 2; Cmp 1 3;
   Cmp 4 6; Cmp 5 7; Rep [0; 1; 2; 3] [(0,1); (0,2); (1,3); (2,3)] [1; 2; 0; 3] 37; Rep [4; 5; 6; 7]
   [(4,5); (4,6); (5,7); (6,7)] [5; 6; 4; 7] 33; Cmp 8 10; Cmp 9 11; Rep [8; 9; 10; 11] [(8,9);
   (8,10); (9,11); (10,11)] [9; 10; 8; 11] 29; Cmp 13 15; Cmp 18 20; Cmp 19 21; Rep [18; 19; 20; 21]
   [(18,19); (18,20); (19,21); (20,21)] [19; 20; 18; 21] 25; Cmp 22 24; Cmp 23 25; Cmp 26 28; Cmp 27
   29; Rep [22; 23; 24; 25] [(22,23); (22,24); (23,25); (24,25)] [23; 24; 22; 25] 21; Rep [26; 27;
   28; 29] [(26,27); (26,28); (27,29); (28,29)] [27; 28; 26; 29] 17; Cmp 9 17; Cmp 0 4; Cmp 1 5; Cmp
   2 6; Cmp 3 7; Rep [0; 1; 2; 3; 4; 5; 6; 7] [(0,1); (0,2); (0,4); (1,3); (1,5); (2,3); (2,6);
   (4,5); (4,6); (3,7); (5,7); (6,7)] [1; 6; 2; 7; 0; 3; 4; 5] 9; Cmp 22 26; Cmp 23 27; Cmp 24 28;
   Cmp 25 29; Rep [22; 23; 24; 25; 26; 27; 28; 29] [(22,23); (22,24); (22,26); (23,25); (23,27);
   (24,25); (24,28); (26,27); (26,28); (25,29); (27,29); (28,29)] [23; 28; 24; 29; 22; 25; 26; 27]
   1; Cmp 12 20; Cmp 13 19; Cmp 15 21; Cmp 1 9; Cmp 3 17; Cmp 5 11; Cmp 12 26; Cmp 13 23; Cmp 15 27;
   Cmp 18 24; Cmp 19 25; Cmp 20 28; Cmp 21 29; Cmp 1 13; Cmp 3 15; Cmp 3 13; Cmp 5 19; Cmp 7 21; Cmp
   9 23; Cmp 5 9; Cmp 3 5; Cmp 7 23; Cmp 9 13; Cmp 5 9; Cmp 7 13; Cmp 11 25; Cmp 11 15; Cmp 14 16;
   Cmp 8 14; Cmp 0 8; Cmp 2 14; Cmp 2 12; Cmp 8 22; Cmp 2 8; Cmp 10 16; Cmp 4 10; Cmp 4 18; Cmp 0 4;
   Cmp 0 2; Cmp 4 8; Cmp 2 4; Cmp 6 16; Cmp 6 20; Cmp 6 22; Cmp 10 24; Cmp 10 12; Cmp 8 10; Cmp 14
   26; Cmp 14 18; Cmp 1 14; Cmp 6 14; Cmp 6 8; Cmp 4 6; Cmp 10 14; Cmp 8 10; Cmp 1 8; Cmp 1 2; Cmp 2
   4; Cmp 12 18; Cmp 16 28; Cmp 15 28; Cmp 15 23; Cmp 16 26; Cmp 17 27; Cmp 17 19; Cmp 11 17; Cmp 7
   11; Cmp 7 9; Cmp 13 17; Cmp 11 13; Cmp 20 24; Cmp 16 20; Cmp 16 22; Cmp 12 16; Cmp 12 14; Cmp 10
   12; Cmp 18 22; Cmp 16 18; Cmp 3 18; Cmp 3 10; Cmp 3 6; Cmp 3 4; Cmp 14 16; Cmp 21 27; Cmp 24 26;
   Cmp 11 26; Cmp 11 18; Cmp 20 24; Cmp 9 24; Cmp 9 16; Cmp 20 22; Cmp 5 20; Cmp 5 12; Cmp 5 8; Cmp
   5 6; Cmp 7 22; Cmp 7 14; Cmp 7 10; Cmp 7 8; Cmp 9 12; Cmp 9 10; Cmp 11 14; Cmp 11 12; Cmp 25 29;
   Cmp 21 25; Cmp 19 21; Cmp 15 19; Cmp 15 17; Cmp 13 15; Cmp 13 20; Cmp 13 16; Cmp 13 14; Cmp 15
   22; Cmp 15 18; Cmp 15 16; Cmp 21 23; Cmp 19 21; Cmp 17 19; Cmp 17 24; Cmp 17 20; Cmp 17 18; Cmp
   19 26; Cmp 19 22; Cmp 19 20; Cmp 21 28; Cmp 21 24; Cmp 21 22; Cmp 27 29; Cmp 25 27; Cmp 23 25;
   Cmp 23 26; Cmp 23 24; Cmp 27 28; Cmp 25 27; Cmp 25 26].
Lemma check30 : check 30%nat 72 swaps30 plan30 = true.
Proof. vm_cast_no_check (eq_refl true). Qed.
Lemma sorts30 : sorts01 30%nat (map pn swaps30).
Proof. eapply check_sound; [vm_compute; reflexivity|exact check30]. Qed.

Definition plan31 : list op :=
  [Cmp 0 1; Cmp 2 3; Rep [0; 1] [(0,1)] [0; 1] 34; Rep [2; 3] [(2,3)] [2; 3] 36; Cmp 4 5; Cmp 6 7; Rep
   [4; 5] [(4,5)] [4; 5] 38; Rep [6; 7] [(6,7)] [6; 7] 40; Cmp 8 9; Cmp 10 11; Rep [8; 9] [(8,9)]
   [8; 9] 42; Rep [10; 11] [(10,11)] [10; 11] 44; Cmp 12 13; Cmp 14 15; Rep [12; 13] [(12,13)] [12;
   13] 46; Rep [14; 15] [(14,15)] [14; 15] 48; Cmp 16 17; Cmp 18 19; Rep [16; 17] [(16,17)] [16; 17]
   50; Rep [18; 19] [(18,19)] [18; 19] 52; Cmp 20 21; Cmp 22 23; Rep [20; 21] [(20,21)] [20; 21] 54;
   Rep [22; 23] [(22,23)] [22; 23] 56; Cmp 24 25; Cmp 26 27; Rep [24; 25] [(24,25)] [24; 25] 58; Rep
   [26; 27] [(26,27)] [26; 27] 60; Cmp 28 29; Rep [28; 29] [(28,29)] [28; 29] 62; Cmp 28 30; Cmp 0
   2; Cmp 1 3; Cmp 4 6; Cmp 5 7; Rep [0; 1; 2; 3] [(0,1); (0,2); (1,3); (2,3)] [1; 2; 0; 3] 64; Rep
   [4; 5; 6; 7] [(4,5); (4,6); (5,7); (6,7)] [5; 6; 4; 7] 68; Cmp 8 10; Cmp 9 11; Cmp 12 14; Cmp 13
   15; Rep [8; 9; 10; 11] [(8,9); (8,10); (9,11); (10,11)] [9; 10; 8; 11] 72; Rep [12; 13; 14; 15]
   [(12,13); (12,14); (13,15); (14,15)] [13; 14; 12; 15] 76; Cmp 16 18; Cmp 17 19; Cmp 20 22; Cmp 21
   23; Rep [16; 17; 18; 19] [(16,17); (16,18); (17,19); (18,19)] [17; 18; 16; 19] 80; Rep [20; 21;
   22; 23] [(20,21); (20,22); (21,23); (22,23)] [21; 22; 20; 23] 84; Cmp 24 26; Cmp 25 27; Rep [24;
   25; 26; 27] [(24,25); (24,26); (25,27); (26,27)] [25; 26; 24; 27] 88; Rep [28; 29; 30] [(28,29);
   (28,30)] [28; 29; 30] 92; Cmp 24 28; Cmp 25 29; Cmp 26 30; Cmp 0 4; Cmp 1 5; Cmp 2 6; Cmp 3 7;
   Cmp 8 12; Cmp 9 13; Cmp 10 14; Cmp 11 15; Rep [0; 1; 2; 3; 4; 5; 6; 7] [(0,1); (0,2); (0,4);
   (1,3); (1,5); (2,3); (2,6); (4,5); (4,6); (3,7); (5,7); (6,7)] [1; 6; 2; 7; 0; 3; 4; 5] 95; Rep
   [8; 9; 10; 11; 12; 13; 14; 15] [(8,9); (8,10); (8,12); (9,11); (9,13); (10,11); (10,14); (12,13);
   (12,14); (11,15); (13,15); (14,15)] [9; 14; 10; 15; 8; 11; 12; 13] 103; Cmp 16 20; Cmp 17 21; Cmp
   18 22; Cmp 19 23; Rep [16; 17; 18; 19; 20; 21; 22; 23] [(16,17); (16,18); (16,20); (17,19);
   (17,21); (18,19); (18,22); (20,21); (20,22); (19,23); (21,23); (22,23)] [17; 22; 18; 23; 16; 19;
   20; 21] 111; Rep [24; 25; 26; 27; 28; 29; 30] [(24,25); (24,26); (24,28); (25,27); (25,29);
   (26,27); (26,30); (28,29); (28,30)] [25; 26; 28; 24; 27; 29; 30] 119; Cmp 16 24; Cmp 17 25; Cmp
   17 24; Cmp 18 26; Cmp 19 27; Cmp 20 28; Cmp 18 20; Cmp 17 18; Cmp 19 28; Cmp 20 24; Cmp 21 29;
   Cmp 21 26; Cmp 19 21; Cmp 22 30; Cmp 22 25; Cmp 23 30; Cmp 26 28; Cmp 21 26; Cmp 27 29; Cmp 23
   27; Cmp 29 30; Rep [16; 17; 18; 19; 20; 21; 22; 23; 24; 25; 26; 27; 28; 29; 30] [(16,17);
   (17,18); (17,20); (18,19); (18,24); (20,21); (20,22); (20,24); (19,21); (22,23); (22,25);
   (24,25); (24,26); (21,23); (21,26); (25,27); (23,27); (23,29); (26,27); (26,28); (28,29);
   (27,30); (29,30)] [21; 25; 18; 29; 26; 19; 27; 20; 17; 30; 23; 22; 16; 28; 24] 126; Cmp 0 8; Cmp
   1 9; Cmp 1 8; Cmp 2 10; Cmp 3 11; Cmp 4 12; Cmp 2 4; Cmp 1 2; Cmp 3 12; Cmp 4 8; Cmp 5 13; Cmp 5
   10; Cmp 3 5; Cmp 6 14; Cmp 6 9; Cmp 7 15; Cmp 7 14; Cmp 10 12; Cmp 5 10; Cmp 11 13; Cmp 7 11; Cmp
   13 14; Rep [0; 1; 2; 3; 4; 5; 6; 7; 8; 9; 10; 11; 12; 13; 14; 15] [(0,1); (1,2); (1,4); (2,3);
   (2,8); (4,5); (4,6); (4,8); (3,5); (6,7); (6,9); (8,9); (8,10); (5,7); (5,10); (9,11); (7,11);
   (7,13); (10,11); (10,12); (12,13); (11,14); (13,14); (14,15)] [5; 11; 2; 13; 10; 6; 1; 14; 12; 9;
   8; 4; 15; 3; 0; 7] 141; Cmp 0 16; Cmp 1 17; Cmp 2 18; Cmp 3 19; Cmp 3 17; Cmp 4 20; Cmp 4 16; Cmp
   1 4; Cmp 5 21; Cmp 5 16; Cmp 2 5; Cmp 2 4; Cmp 6 22; Cmp 6 18; Cmp 7 23; Cmp 8 24; Cmp 8 20; Cmp
   3 8; Cmp 9 25; Cmp 7 9; Cmp 7 17; Cmp 7 8; Cmp 9 21; Cmp 9 18; Cmp 10 26; Cmp 11 27; Cmp 11 23;
   Cmp 11 19; Cmp 11 17; Cmp 12 28; Cmp 12 20; Cmp 12 16; Cmp 6 12; Cmp 5 6; Cmp 3 5; Cmp 3 4; Cmp 6
   7; Cmp 5 6; Cmp 8 12; Cmp 9 16; Cmp 13 29; Cmp 13 25; Cmp 14 30; Cmp 14 28; Cmp 15 27; Cmp 15 26;
   Cmp 15 19; Cmp 19 25; Cmp 22 24; Cmp 10 22; Cmp 10 11; Cmp 9 10; Cmp 8 9; Cmp 7 8; Cmp 10 12; Cmp
   9 10; Cmp 13 22; Cmp 13 17; Cmp 11 13; Cmp 14 24; Cmp 14 20; Cmp 14 18; Cmp 14 16; Cmp 11 14; Cmp
   11 12; Cmp 13 16; Cmp 13 14; Cmp 15 22; Cmp 15 17; Cmp 20 21; Cmp 18 20; Cmp 15 18; Cmp 15 16;
   Cmp 17 20; Cmp 17 18; Cmp 21 22; Cmp 23 28; Cmp 23 24; Cmp 19 23; Cmp 19 21; Cmp 19 20; Cmp 22
   23; Cmp 21 22; Cmp 26 29; Cmp 25 26; Cmp 24 25; Cmp 23 24; Cmp 26 28; Cmp 25 26; Cmp 27 30; Cmp
   27 29; Cmp 27 28].
Lemma check31 : check 31%nat 1 swaps31 plan31 = true.
Proof. vm_cast_no_check (eq_refl true). Qed.
Lemma sorts31 : sorts01 31%nat (map pn swaps31).
Proof. eapply check_sound; [vm_compute; reflexivity|exact check31]. Qed.

Definition plan32 : list op :=
  [Cmp 0 1; Cmp 2 3; Rep [0; 1] [(0,1)] [0; 1] 35; Rep [2; 3] [(2,3)] [2; 3] 37; Cmp 4 5; Cmp 6 7; Rep
   [4; 5] [(4,5)] [4; 5] 39; Rep [6; 7] [(6,7)] [6; 7] 41; Cmp 8 9; Cmp 10 11; Rep [8; 9] [(8,9)]
   [8; 9] 43; Rep [10; 11] [(10,11)] [10; 11] 45; Cmp 12 13; Cmp 14 15; Rep [12; 13] [(12,13)] [12;
   13] 47; Rep [14; 15] [(14,15)] [14; 15] 49; Cmp 16 17; Cmp 18 19; Rep [16; 17] [(16,17)] [16; 17]
   51; Rep [18; 19] [(18,19)] [18; 19] 53; Cmp 20 21; Cmp 22 23; Rep [20; 21] [(20,21)] [20; 21] 55;
   Rep [22; 23] [(22,23)] [22; 23] 57; Cmp 24 25; Cmp 26 27; Rep [24; 25] [(24,25)] [24; 25] 59; Rep
   [26; 27] [(26,27)] [26; 27] 61; Cmp 28 29; Cmp 30 31; Rep [28; 29] [(28,29)] [28; 29] 63; Rep
   [30; 31] [(30,31)] [30; 31] 65; Cmp 0 2; Cmp 1 3; Cmp 4 6; Cmp 5 7; Rep [0; 1; 2; 3] [(0,1);
   (0,2); (1,3); (2,3)] [1; 2; 0; 3] 67; Rep [4; 5; 6; 7] [(4,5); (4,6); (5,7); (6,7)] [5; 6; 4; 7]
   71; Cmp 8 10; Cmp 9 11; Cmp 12 14; Cmp 13 15; Rep [8; 9; 10; 11] [(8,9); (8,10); (9,11); (10,11)]
   [9; 10; 8; 11] 75; Rep [12; 13; 14; 15] [(12,13); (12,14); (13,15); (14,15)] [13; 14; 12; 15] 79;
   Cmp 16 18; Cmp 17 19; Cmp 20 22; Cmp 21 23; Rep [16; 17; 18; 19] [(16,17); (16,18); (17,19);
   (18,19)] [17; 18; 16; 19] 83; Rep [20; 21; 22; 23] [(20,21); (20,22); (21,23); (22,23)] [21; 22;
   20; 23] 87; Cmp 24 26; Cmp 25 27; Cmp 28 30; Cmp 29 31; Rep [24; 25; 26; 27] [(24,25); (24,26);
   (25,27); (26,27)] [25; 26; 24; 27] 91; Rep [28; 29; 30; 31] [(28,29); (28,30); (29,31); (30,31)]
   [29; 30; 28; 31] 95; Cmp 0 4; Cmp 1 5; Cmp 2 6; Cmp 3 7; Cmp 8 12; Cmp 9 13; Cmp 10 14; Cmp 11
   15; Rep [0; 1; 2; 3; 4; 5; 6; 7] [(0,1); (0,2); (0,4); (1,3); (1,5); (2,3); (2,6); (4,5); (4,6);
   (3,7); (5,7); (6,7)] [1; 6; 2; 7; 0; 3; 4; 5] 99; Rep [8; 9; 10; 11; 12; 13; 14; 15] [(8,9);
   (8,10); (8,12); (9,11); (9,13); (10,11); (10,14); (12,13); (12,14); (11,15); (13,15); (14,15)]
   [9; 14; 10; 15; 8; 11; 12; 13] 107; Cmp 16 20; Cmp 17 21; Cmp 18 22; Cmp 19 23; Cmp 24 28; Cmp 25
   29; Cmp 26 30; Cmp 27 31; Rep [16; 17; 18; 19; 20; 21; 22; 23] [(16,17); (16,18); (16,20);
   (17,19); (17,21); (18,19); (18,22); (20,21); (20,22); (19,23); (21,23); (22,23)] [17; 22; 18; 23;
   16; 19; 20; 21] 115; Rep [24; 25; 26; 27; 28; 29; 30; 31] [(24,25); (24,26); (24,28); (25,27);
   (25,29); (26,27); (26,30); (28,29); (28,30); (27,31); (29,31); (30,31)] [25; 30; 26; 31; 24; 27;
   28; 29] 123; Cmp 0 8; Cmp 1 9; Cmp 1 8; Cmp 2 10; Cmp 3 11; Cmp 4 12; Cmp 2 4; Cmp 1 2; Cmp 3 12;
   Cmp 4 8; Cmp 5 13; Cmp 5 10; Cmp 3 5; Cmp 6 14; Cmp 6 9; Cmp 7 15; Cmp 7 14; Cmp 10 12; Cmp 5 10;
   Cmp 11 13; Cmp 7 11; Cmp 13 14; Cmp 16 24; Cmp 17 25; Cmp 17 24; Cmp 18 26; Cmp 19 27; Cmp 20 28;
   Cmp 18 20; Cmp 17 18; Cmp 19 28; Cmp 20 24; Cmp 21 29; Cmp 21 26; Cmp 19 21; Cmp 22 30; Cmp 22
   25; Cmp 23 31; Cmp 23 30; Cmp 26 28; Cmp 21 26; Cmp 27 29; Cmp 23 27; Cmp 29 30; Rep [0; 1; 2; 3;
   4; 5; 6; 7; 8; 9; 10; 11; 12; 13; 14; 15] [(0,1); (1,2); (1,4); (2,3); (2,8); (4,5); (4,6);
   (4,8); (3,5); (6,7); (6,9); (8,9); (8,10); (5,7); (5,10); (9,11); (7,11); (7,13); (10,11);
   (10,12); (12,13); (11,14); (13,14); (14,15)] [5; 11; 2; 13; 10; 6; 1; 14; 12; 9; 8; 4; 15; 3; 0;
   7] 131; Rep [16; 17; 18; 19; 20; 21; 22; 23; 24; 25; 26; 27; 28; 29; 30; 31] [(16,17); (17,18);
   (17,20); (18,19); (18,24); (20,21); (20,22); (20,24); (19,21); (22,23); (22,25); (24,25);
   (24,26); (21,23); (21,26); (25,27); (23,27); (23,29); (26,27); (26,28); (28,29); (27,30);
   (29,30); (30,31)] [21; 27; 18; 29; 26; 22; 17; 30; 28; 25; 24; 20; 31; 19; 16; 23] 147; Cmp 0 16;
   Cmp 1 17; Cmp 2 18; Cmp 3 19; Cmp 3 17; Cmp 4 20; Cmp 4 16; Cmp 1 4; Cmp 5 21; Cmp 5 16; Cmp 2 5;
   Cmp 2 4; Cmp 6 22; Cmp 6 18; Cmp 7 23; Cmp 8 24; Cmp 8 20; Cmp 3 8; Cmp 9 25; Cmp 7 9; Cmp 7 17;
   Cmp 7 8; Cmp 9 21; Cmp 9 18; Cmp 10 26; Cmp 11 27; Cmp 11 23; Cmp 11 19; Cmp 11 17; Cmp 12 28;
   Cmp 12 20; Cmp 12 16; Cmp 6 12; Cmp 5 6; Cmp 3 5; Cmp 3 4; Cmp 6 7; Cmp 5 6; Cmp 8 12; Cmp 9 16;
   Cmp 13 29; Cmp 13 25; Cmp 14 30; Cmp 14 28; Cmp 15 31; Cmp 15 27; Cmp 15 26; Cmp 15 19; Cmp 19
   25; Cmp 22 24; Cmp 10 22; Cmp 10 11; Cmp 9 10; Cmp 8 9; Cmp 7 8; Cmp 10 12; Cmp 9 10; Cmp 13 22;
   Cmp 13 17; Cmp 11 13; Cmp 14 24; Cmp 14 20; Cmp 14 18; Cmp 14 16; Cmp 11 14; Cmp 11 12; Cmp 13
   16; Cmp 13 14; Cmp 15 22; Cmp 15 17; Cmp 20 21; Cmp 18 20; Cmp 15 18; Cmp 15 16; Cmp 17 20; Cmp
   17 18; Cmp 21 22; Cmp 23 28; Cmp 23 24; Cmp 19 23; Cmp 19 21; Cmp 19 20; Cmp 22 23; Cmp 21 22;
   Cmp 26 29; Cmp 25 26; Cmp 24 25; Cmp 23 24; Cmp 26 28; Cmp 25 26; Cmp 27 30; Cmp 27 29; Cmp 27
   28].
Lemma check32 : check 32%nat 1 swaps32 plan32 = true.
Proof. vm_cast_no_check (eq_refl true). Qed.
Lemma sorts32 : sorts01 32%nat (map pn swaps32).
Proof. eapply check_sound; [vm_compute; reflexivity|exact check32]. Qed.
