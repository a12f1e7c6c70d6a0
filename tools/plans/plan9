0
C 1 7
C 2 5
R 3 W 2 5 E 2 5 P 2 5
C 0 3
R 3 W 0 3 E 0 3 P 0 3
R 3 W 1 7 E 1 7 P 1 7
C 5 6
C 4 8
R 5 W 2 5 6 E 2 6 5 6 P 6 2 5
R 3 W 4 8 E 4 8 P 4 8
C 0 7
R 8 W 0 3 1 7 E 0 3 0 7 1 7 P 0 1 3 7
C 2 4
C 4 5
C 3 8
C 0 2
C 1 3
C 1 4
C 0 1
C 2 4
C 3 6
C 7 8
C 5 7
C 3 5
C 2 3
C 1 2
C 4 5
C 3 4
C 6 8
C 6 7
C 5 6
