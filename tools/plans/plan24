1
C 0 20
C 1 12
C 2 16
C 3 23
R 3 W 0 20 E 0 20 P 0 20
R 3 W 3 23 E 3 23 P 3 23
C 4 6
C 5 10
C 7 21
R 3 W 2 16 E 2 16 P 2 16
R 3 W 7 21 E 7 21 P 7 21
C 8 14
C 9 15
R 3 W 8 14 E 8 14 P 8 14
R 3 W 9 15 E 9 15 P 9 15
C 11 22
R 3 W 1 12 E 1 12 P 1 12
R 3 W 11 22 E 11 22 P 11 22
C 13 18
R 3 W 5 10 E 5 10 P 5 10
R 3 W 13 18 E 13 18 P 13 18
C 17 19
R 3 W 4 6 E 4 6 P 4 6
R 3 W 17 19 E 17 19 P 17 19
C 0 3
C 20 23
C 1 11
C 12 22
R 6 W 0 20 3 23 E 0 20 0 3 20 23 3 23 P 20 3 0 23
R 6 W 1 12 11 22 E 1 12 1 11 12 22 11 22 P 12 11 1 22
C 2 7
C 16 21
C 4 17
C 6 19
R 6 W 2 16 7 21 E 2 16 2 7 16 21 7 21 P 16 7 2 21
R 6 W 4 6 17 19 E 4 6 4 17 6 19 17 19 P 6 17 4 19
C 5 13
C 10 18
R 6 W 5 10 13 18 E 5 10 5 13 10 18 13 18 P 10 13 5 18
C 8 9
C 14 15
R 6 W 8 14 9 15 E 8 14 8 9 14 15 9 15 P 14 9 8 15
C 0 1
C 3 12
C 11 20
C 22 23
C 2 4
C 19 21
C 5 8
C 15 18
C 2 5
C 4 8
C 6 9
C 7 10
C 13 16
C 9 16
C 14 17
C 7 14
C 4 7
C 15 19
C 16 19
C 18 21
R 20 W 0 20 3 23 1 12 11 22 E 0 3 0 1 0 11 3 12 3 22 1 20 1 12 11 20 11 22 20 23 12 23 22 23 P 20 12 3 23 11 22 0 1
C 0 7
C 0 2
C 1 8
C 1 5
C 3 14
C 3 4
C 2 3
C 4 7
C 6 11
C 9 20
C 9 14
C 5 9
C 4 5
C 7 9
C 11 13
C 6 11
C 1 6
C 1 2
C 12 17
C 10 12
C 10 13
C 12 17
C 15 22
C 8 15
C 8 10
C 6 8
C 3 6
C 2 3
C 7 8
C 6 7
C 10 11
C 4 10
C 3 4
C 4 6
C 5 10
C 5 7
C 5 6
C 9 11
C 8 9
C 13 15
C 12 13
C 16 23
C 18 22
C 14 18
C 17 22
C 15 17
C 19 20
C 16 19
C 14 16
C 12 14
C 10 12
C 8 10
C 7 8
C 9 12
C 9 10
C 15 16
C 14 15
C 18 19
C 13 19
C 13 18
C 11 13
C 11 14
C 11 12
C 13 15
C 13 14
C 21 23
C 20 21
C 17 20
C 16 17
C 16 18
C 15 16
C 21 22
C 20 21
C 19 20
C 17 19
C 17 18
