0
C 5 11
R 3 W 5 11 E 5 11 P 5 11
C 0 12
C 2 9
C 3 7
R 3 W 2 9 E 2 9 P 2 9
R 3 W 3 7 E 3 7 P 3 7
C 4 11
R 3 W 0 12 E 0 12 P 0 12
R 5 W 4 5 11 E 4 11 5 11 P 11 4 5
C 1 10
C 2 3
C 7 9
C 6 8
R 3 W 1 10 E 1 10 P 1 10
R 3 W 6 8 E 6 8 P 6 8
C 8 10
C 1 6
R 6 W 6 8 1 10 E 1 6 1 8 6 10 8 10 P 6 8 10 1
R 6 W 2 9 3 7 E 2 3 2 7 3 9 7 9 P 3 9 2 7
C 1 2
C 3 6
C 7 8
C 9 10
R 20 W 6 8 1 10 2 9 3 7 E 1 2 1 3 1 7 2 6 2 8 3 6 3 9 7 8 7 9 6 10 8 10 9 10 P 6 8 7 10 9 3 1 2
C 11 12
C 0 4
R 11 W 4 5 11 0 12 E 5 12 0 4 0 11 4 12 11 12 P 4 12 11 5 0
C 8 11
C 3 8
C 4 6
C 4 7
C 5 9
C 0 5
C 0 1
C 1 3
C 2 5
C 2 4
C 1 2
C 3 4
C 2 3
C 6 11
C 7 8
C 10 12
C 9 10
C 6 9
C 5 6
C 5 7
C 4 5
C 3 4
C 6 8
C 6 7
C 5 6
C 10 11
C 9 10
C 8 9
