0
C 8 9
C 2 3
C 4 5
R 3 W 4 5 E 4 5 P 4 5
R 3 W 8 9 E 8 9 P 8 9
C 12 13
C 0 1
R 3 W 0 1 E 0 1 P 0 1
R 3 W 2 3 E 2 3 P 2 3
C 5 9
C 4 8
C 5 8
C 10 11
R 3 W 10 11 E 10 11 P 10 11
R 3 W 12 13 E 12 13 P 12 13
C 11 13
C 10 12
C 11 12
R 5 W 4 5 8 9 E 4 5 5 8 8 9 P 5 8 4 9
R 5 W 10 11 12 13 E 10 11 11 12 12 13 P 11 12 10 13
C 0 2
C 1 3
C 1 2
R 5 W 0 1 2 3 E 0 1 1 2 2 3 P 1 2 0 3
C 6 7
R 3 W 6 7 E 6 7 P 6 7
C 6 10
C 0 4
C 1 5
C 3 7
C 0 6
C 4 10
C 2 10
C 4 6
C 8 12
C 2 8
C 9 13
C 3 9
C 3 11
C 1 3
C 1 4
C 5 11
C 3 5
C 7 13
C 7 9
C 6 7
C 2 6
C 2 4
C 3 6
C 3 4
C 7 11
C 10 12
C 8 10
C 5 8
C 5 6
C 7 10
C 7 8
C 6 7
C 9 12
C 9 11
C 9 10
