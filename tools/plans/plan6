1
C 0 5
C 1 3
C 2 4
R 3 W 1 3 E 1 3 P 1 3
R 3 W 2 4 E 2 4 P 2 4
C 1 2
C 3 4
R 3 W 0 5 E 0 5 P 0 5
R 6 W 1 3 2 4 E 1 3 1 2 3 4 2 4 P 3 2 1 4
C 0 3
C 0 1
C 2 5
C 2 3
C 1 2
C 4 5
C 3 4
