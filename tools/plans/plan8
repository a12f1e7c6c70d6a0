0
C 0 2
C 1 3
C 4 6
R 3 W 0 2 E 0 2 P 0 2
R 3 W 4 6 E 4 6 P 4 6
C 5 7
R 3 W 1 3 E 1 3 P 1 3
R 3 W 5 7 E 5 7 P 5 7
C 0 4
C 2 6
C 1 5
C 3 7
R 6 W 0 2 4 6 E 0 2 0 4 2 6 4 6 P 2 4 0 6
R 6 W 1 3 5 7 E 1 3 1 5 3 7 5 7 P 3 5 1 7
C 0 1
C 2 3
C 4 5
C 2 4
C 1 4
C 1 2
C 3 5
C 6 7
C 3 6
C 3 4
C 5 6
