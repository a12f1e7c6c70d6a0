1
C 16 17
C 4 5
C 10 11
C 8 9
R 3 W 8 9 E 8 9 P 8 9
R 3 W 10 11 E 10 11 P 10 11
C 2 3
C 0 1
R 3 W 0 1 E 0 1 P 0 1
R 3 W 2 3 E 2 3 P 2 3
C 14 15
R 3 W 14 15 E 14 15 P 14 15
R 3 W 16 17 E 16 17 P 16 17
C 6 7
R 3 W 6 7 E 6 7 P 6 7
C 12 13
R 3 W 4 5 E 4 5 P 4 5
R 3 W 12 13 E 12 13 P 12 13
C 5 13
C 4 12
C 14 16
C 15 17
C 6 8
C 1 3
C 0 2
R 6 W 0 1 2 3 E 0 1 0 2 1 3 2 3 P 1 2 0 3
R 6 W 14 15 16 17 E 14 15 14 16 15 17 16 17 P 15 16 14 17
C 1 16
C 0 14
C 2 15
C 3 17
R 20 W 0 1 2 3 14 15 16 17 E 0 1 0 2 0 14 1 3 1 16 2 3 2 15 14 15 14 16 3 17 15 17 16 17 P 1 15 2 17 0 3 14 16
C 9 11
C 7 16
C 0 6
C 1 10
C 2 9
C 3 9
C 8 15
C 8 14
C 11 17
R 6 W 4 5 12 13 E 4 5 4 12 5 13 12 13 P 5 12 4 13
C 1 4
C 0 1
C 4 14
C 4 6
C 5 7
C 2 5
C 1 2
C 7 9
C 10 12
C 8 10
C 4 8
C 1 4
C 2 8
C 2 4
C 6 10
C 12 15
C 12 14
C 13 16
C 3 13
C 3 5
C 3 6
C 5 12
C 10 12
C 6 10
C 11 13
C 7 11
C 5 7
C 5 8
C 3 5
C 3 4
C 6 8
C 5 6
C 9 13
C 11 14
C 7 11
C 7 10
C 7 8
C 16 17
C 15 16
C 9 15
C 9 12
C 9 11
C 9 10
C 12 14
C 11 12
C 13 16
C 13 15
C 13 14
