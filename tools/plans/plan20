1
C 0 3
C 1 7
C 2 5
C 4 8
C 6 9
C 10 13
R 3 W 6 9 E 6 9 P 6 9
R 3 W 10 13 E 10 13 P 10 13
C 11 15
R 3 W 1 7 E 1 7 P 1 7
R 3 W 11 15 E 11 15 P 11 15
C 12 18
R 3 W 4 8 E 4 8 P 4 8
R 3 W 12 18 E 12 18 P 12 18
C 14 17
R 3 W 0 3 E 0 3 P 0 3
R 3 W 14 17 E 14 17 P 14 17
C 16 19
R 3 W 2 5 E 2 5 P 2 5
R 3 W 16 19 E 16 19 P 16 19
C 0 14
C 3 17
C 1 11
C 7 15
C 2 16
C 5 19
R 6 W 1 7 11 15 E 1 7 1 11 7 15 11 15 P 7 11 1 15
R 6 W 2 5 16 19 E 2 5 2 16 5 19 16 19 P 5 16 2 19
C 4 12
C 8 18
R 6 W 0 3 14 17 E 0 3 0 14 3 17 14 17 P 3 14 0 17
R 6 W 4 8 12 18 E 4 8 4 12 8 18 12 18 P 8 12 4 18
C 6 10
C 9 13
C 0 4
C 3 8
C 12 14
C 17 18
R 6 W 6 9 10 13 E 6 9 6 10 9 13 10 13 P 9 10 6 13
R 20 W 0 3 14 17 4 8 12 18 E 0 3 0 4 0 12 3 17 3 8 4 14 4 8 12 14 12 17 14 18 17 18 8 18 P 3 14 4 18 17 0 12 8
C 1 2
C 5 7
C 11 16
C 15 19
R 20 W 1 7 11 15 2 5 16 19 E 1 11 1 2 1 5 11 15 11 16 2 7 2 16 5 7 5 15 7 19 15 19 16 19 P 7 15 11 16 2 19 1 5
C 1 6
C 0 1
C 2 12
C 2 6
C 1 6
C 3 5
C 4 11
C 7 17
C 7 10
C 7 11
C 4 7
C 2 4
C 8 15
C 9 12
C 5 9
C 3 5
C 1 3
C 1 2
C 3 4
C 2 3
C 5 7
C 8 12
C 9 11
C 12 15
C 13 18
C 13 17
C 14 16
C 10 14
C 8 10
C 6 10
C 6 7
C 4 6
C 10 11
C 14 16
C 12 14
C 11 14
C 15 17
C 18 19
C 13 18
C 9 13
C 8 9
C 5 8
C 4 5
C 3 4
C 6 8
C 5 6
C 7 9
C 12 13
C 10 12
C 7 10
C 7 8
C 9 12
C 9 10
C 16 18
C 15 16
C 13 15
C 11 13
C 11 12
C 14 15
C 13 14
C 17 18
C 16 17
C 15 16
