0
C 10 13
C 6 17
C 1 4
C 7 11
R 3 W 1 4 E 1 4 P 1 4
R 3 W 7 11 E 7 11 P 7 11
C 0 12
C 15 16
R 3 W 10 13 E 10 13 P 10 13
R 3 W 15 16 E 15 16 P 15 16
C 3 5
R 3 W 3 5 E 3 5 P 3 5
R 3 W 6 17 E 6 17 P 6 17
C 2 8
R 3 W 0 12 E 0 12 P 0 12
R 3 W 2 8 E 2 8 P 2 8
C 10 15
C 13 16
C 1 7
C 4 11
C 5 17
C 3 6
R 6 W 3 5 6 17 E 3 5 3 6 5 17 6 17 P 5 6 3 17
R 6 W 10 13 15 16 E 10 13 10 15 13 16 15 16 P 13 15 10 16
R 6 W 1 4 7 11 E 1 4 1 7 4 11 7 11 P 4 7 1 11
C 0 2
C 8 12
C 9 14
R 3 W 9 14 E 9 14 P 9 14
C 11 17
R 6 W 0 12 2 8 E 0 2 0 8 2 12 8 12 P 2 12 0 8
C 14 18
R 5 W 9 14 18 E 9 18 14 18 P 18 9 14
C 16 18
C 12 17
C 6 13
C 3 10
C 1 10
C 4 14
C 4 6
C 2 6
C 5 15
C 7 9
C 0 7
C 0 3
C 3 4
C 5 7
C 9 15
C 2 9
C 2 5
C 6 15
C 6 9
C 11 16
C 8 11
C 1 8
C 1 3
C 0 1
C 2 3
C 1 2
C 10 11
C 8 10
C 4 8
C 5 8
C 4 5
C 6 10
C 12 16
C 12 18
C 13 14
C 7 13
C 7 12
C 6 7
C 3 6
C 3 4
C 2 3
C 5 6
C 4 5
C 9 12
C 10 13
C 8 10
C 11 14
C 9 11
C 7 9
C 7 8
C 6 7
C 9 10
C 8 9
C 11 12
C 14 15
C 17 18
C 16 17
C 14 16
C 13 14
C 11 13
C 10 11
C 12 14
C 12 13
C 15 17
C 15 16
C 14 15
