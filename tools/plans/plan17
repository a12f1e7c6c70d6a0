1
C 8 12
C 0 11
R 3 W 0 11 E 0 11 P 0 11
C 9 16
C 3 5
C 2 10
R 3 W 2 10 E 2 10 P 2 10
R 3 W 8 12 E 8 12 P 8 12
C 1 15
R 3 W 3 5 E 3 5 P 3 5
R 3 W 1 15 E 1 15 P 1 15
C 4 6
R 3 W 4 6 E 4 6 P 4 6
C 2 8
C 5 15
C 0 6
R 8 W 0 11 4 6 E 0 11 0 6 4 6 P 0 4 11 6
R 3 W 9 16 E 9 16 P 9 16
C 13 14
R 3 W 13 14 E 13 14 P 13 14
C 7 11
R 13 W 7 0 11 4 6 E 7 11 0 11 0 6 4 6 P 0 7 4 11 6
C 4 14
R 34 W 7 0 11 4 6 13 14 E 7 11 0 11 0 6 4 6 4 14 13 14 P 0 4 14 7 13 11 6
C 4 9
C 6 16
C 12 14
C 0 8
C 0 2
C 8 9
C 10 11
C 10 12
C 11 14
C 5 6
C 1 13
C 1 4
C 2 5
C 3 7
C 0 3
C 0 1
C 1 2
C 3 4
C 6 11
C 7 13
C 7 10
C 5 10
C 7 8
C 3 7
C 1 3
C 2 7
C 2 3
C 4 8
C 4 5
C 5 7
C 9 13
C 6 9
C 15 16
C 12 15
C 6 12
C 4 6
C 3 4
C 10 12
C 8 10
C 6 8
C 5 6
C 4 5
C 10 12
C 11 15
C 14 16
C 13 14
C 11 13
C 9 11
C 7 9
C 7 8
C 6 7
C 9 10
C 8 9
C 11 12
C 10 11
C 14 15
C 13 14
C 12 13
