0
C 3 5
C 0 8
R 3 W 3 5 E 3 5 P 3 5
R 3 W 0 8 E 0 8 P 0 8
C 4 6
C 2 7
R 3 W 2 7 E 2 7 P 2 7
C 1 9
R 3 W 1 9 E 1 9 P 1 9
R 3 W 4 6 E 4 6 P 4 6
C 0 2
C 1 4
C 0 3
C 5 8
C 2 4
C 0 1
C 7 9
C 5 7
C 1 5
C 6 9
C 3 6
C 2 3
C 1 2
C 3 5
C 2 3
C 6 7
C 8 9
C 4 8
C 4 6
C 4 5
C 3 4
C 7 8
C 6 7
C 5 6
