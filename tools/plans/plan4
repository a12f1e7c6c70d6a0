0
C 0 2
C 1 3
R 3 W 0 2 E 0 2 P 0 2
R 3 W 1 3 E 1 3 P 1 3
C 0 1
C 2 3
C 1 2
