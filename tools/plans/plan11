0
C 5 8
C 1 6
C 2 4
R 3 W 2 4 E 2 4 P 2 4
C 3 7
R 3 W 3 7 E 3 7 P 3 7
R 3 W 5 8 E 5 8 P 5 8
C 0 9
R 3 W 0 9 E 0 9 P 0 9
R 3 W 1 6 E 1 6 P 1 6
C 6 9
C 0 1
C 4 10
C 7 8
C 3 5
R 6 W 1 6 0 9 E 0 1 0 6 1 9 6 9 P 1 6 9 0
R 6 W 3 7 5 8 E 3 7 3 5 7 8 5 8 P 7 5 3 8
R 5 W 2 4 10 E 2 10 4 10 P 10 2 4
C 8 10
C 2 5
C 4 7
R 19 W 3 7 5 8 2 4 10 E 3 7 3 5 2 5 2 8 4 7 4 8 7 10 5 10 8 10 P 7 5 8 10 2 4 3
C 5 9
C 0 4
C 1 3
C 1 2
C 0 1
C 3 7
C 4 5
C 6 8
C 2 6
C 2 4
C 1 2
C 3 6
C 3 4
C 2 3
C 7 8
C 5 7
C 5 6
C 4 5
C 9 10
C 8 9
C 7 8
C 6 7
