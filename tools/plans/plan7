1
C 0 6
C 4 5
R 3 W 4 5 E 4 5 P 4 5
C 2 3
R 3 W 0 6 E 0 6 P 0 6
R 3 W 2 3 E 2 3 P 2 3
C 0 2
C 3 6
R 6 W 0 6 2 3 E 0 2 0 3 2 6 3 6 P 2 6 0 3
C 2 5
C 1 4
C 0 1
C 1 2
C 3 4
C 2 3
C 1 2
C 4 6
C 4 5
C 3 4
C 5 6
