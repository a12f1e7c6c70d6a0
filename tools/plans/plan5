0
C 0 3
R 3 W 0 3 E 0 3 P 0 3
C 1 4
R 3 W 1 4 E 1 4 P 1 4
C 0 2
R 5 W 0 3 2 E 0 3 0 2 P 0 3 2
C 1 3
C 0 1
C 2 4
C 1 2
C 3 4
C 2 3
