0
C 1 7
C 2 6
C 4 10
C 5 9
R 3 W 2 6 E 2 6 P 2 6
R 3 W 5 9 E 5 9 P 5 9
C 0 8
R 3 W 0 8 E 0 8 P 0 8
R 3 W 1 7 E 1 7 P 1 7
C 7 8
C 0 1
C 6 9
C 2 5
R 6 W 1 7 0 8 E 0 1 0 7 1 8 7 8 P 1 7 8 0
R 6 W 2 6 5 9 E 2 6 2 5 6 9 5 9 P 6 5 2 9
C 3 11
R 3 W 3 11 E 3 11 P 3 11
R 3 W 4 10 E 4 10 P 4 10
C 10 11
C 3 4
R 6 W 4 10 3 11 E 3 4 3 10 4 11 10 11 P 4 10 11 3
C 9 11
C 5 10
C 9 10
C 0 2
C 0 3
C 1 6
C 1 2
C 4 6
C 1 4
C 5 7
C 3 5
C 1 3
C 2 5
C 2 3
C 4 5
C 7 10
C 8 11
C 6 8
C 6 9
C 6 7
C 4 6
C 3 4
C 5 7
C 5 6
C 8 10
C 8 9
C 7 8
