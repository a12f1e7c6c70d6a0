1
C 0 1
R 3 W 0 1 E 0 1 P 0 1
C 1 2
C 0 1
