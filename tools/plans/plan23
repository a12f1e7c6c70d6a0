0
C 0 1
C 2 3
R 3 W 0 1 E 0 1 P 0 1
R 3 W 2 3 E 2 3 P 2 3
C 4 5
C 6 7
R 3 W 4 5 E 4 5 P 4 5
R 3 W 6 7 E 6 7 P 6 7
C 8 9
C 10 11
R 3 W 8 9 E 8 9 P 8 9
R 3 W 10 11 E 10 11 P 10 11
C 12 13
C 14 15
R 3 W 12 13 E 12 13 P 12 13
R 3 W 14 15 E 14 15 P 14 15
C 16 17
C 18 19
R 3 W 16 17 E 16 17 P 16 17
R 3 W 18 19 E 18 19 P 18 19
C 20 21
R 3 W 20 21 E 20 21 P 20 21
C 21 22
C 0 2
C 1 3
C 4 6
C 5 7
R 6 W 0 1 2 3 E 0 1 0 2 1 3 2 3 P 1 2 0 3
R 6 W 4 5 6 7 E 4 5 4 6 5 7 6 7 P 5 6 4 7
C 8 10
C 9 11
C 12 14
C 13 15
R 6 W 8 9 10 11 E 8 9 8 10 9 11 10 11 P 9 10 8 11
R 6 W 12 13 14 15 E 12 13 12 14 13 15 14 15 P 13 14 12 15
C 16 18
C 17 19
R 6 W 16 17 18 19 E 16 17 16 18 17 19 18 19 P 17 18 16 19
R 5 W 20 21 22 E 20 22 21 22 P 22 20 21
C 17 21
C 18 20
C 19 22
C 0 4
C 1 5
C 2 6
C 3 7
C 8 12
C 9 13
C 10 14
C 11 15
R 20 W 0 1 2 3 4 5 6 7 E 0 1 0 2 0 4 1 3 1 5 2 3 2 6 4 5 4 6 3 7 5 7 6 7 P 1 6 2 7 0 3 4 5
R 20 W 8 9 10 11 12 13 14 15 E 8 9 8 10 8 12 9 11 9 13 10 11 10 14 12 13 12 14 11 15 13 15 14 15 P 9 14 10 15 8 11 12 13
C 0 8
C 1 9
C 2 10
C 1 2
C 3 11
C 4 12
C 5 13
C 6 14
C 7 15
R 19 W 16 17 18 19 20 21 22 E 16 20 16 21 17 19 17 21 18 19 18 20 19 22 20 22 21 22 P 19 20 16 21 17 22 18
C 5 18
C 7 19
C 6 7
C 9 16
C 5 9
C 6 16
C 10 21
C 10 18
C 6 10
C 11 21
C 12 20
C 12 17
C 3 17
C 3 4
C 4 10
C 8 12
C 5 8
C 0 5
C 1 8
C 4 8
C 9 12
C 2 12
C 2 6
C 3 9
C 3 5
C 1 3
C 2 5
C 2 3
C 6 9
C 4 6
C 3 4
C 5 6
C 4 5
C 8 9
C 10 12
C 13 20
C 13 16
C 15 22
C 14 15
C 7 14
C 7 13
C 15 19
C 14 15
C 14 16
C 17 18
C 11 17
C 7 11
C 7 10
C 7 8
C 6 7
C 9 10
C 8 9
C 14 17
C 12 14
C 16 17
C 20 21
C 18 20
C 13 18
C 11 13
C 11 12
C 10 11
C 13 14
C 12 13
C 15 20
C 15 18
C 15 16
C 14 15
C 19 21
C 19 20
C 17 19
C 17 18
C 16 17
