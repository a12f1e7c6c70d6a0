0
C 3 10
C 1 2
C 5 8
R 3 W 1 2 E 1 2 P 1 2
R 3 W 5 8 E 5 8 P 5 8
C 9 11
C 6 13
R 3 W 6 13 E 6 13 P 6 13
R 3 W 9 11 E 9 11 P 9 11
C 7 12
R 3 W 3 10 E 3 10 P 3 10
R 3 W 7 12 E 7 12 P 7 12
C 10 12
C 3 7
C 11 13
C 6 9
C 4 14
R 3 W 4 14 E 4 14 P 4 14
R 6 W 3 10 7 12 E 3 10 3 7 10 12 7 12 P 10 7 3 12
C 0 14
R 5 W 0 4 14 E 0 14 4 14 P 14 0 4
C 1 5
C 2 8
R 6 W 1 2 5 8 E 1 2 1 5 2 8 5 8 P 2 5 1 8
R 6 W 9 11 6 13 E 6 9 6 11 9 13 11 13 P 9 11 13 6
C 8 13
C 1 6
C 2 9
C 5 11
R 20 W 1 2 5 8 9 11 6 13 E 1 2 1 5 1 6 2 8 2 9 5 8 5 11 6 9 6 11 8 13 9 13 11 13 P 2 11 5 13 1 8 9 6
C 0 7
C 4 10
C 12 14
R 19 W 0 4 14 3 10 7 12 E 0 7 0 12 4 10 4 12 3 10 3 7 10 14 7 14 12 14 P 10 7 0 14 4 12 3
C 2 4
C 0 6
C 1 2
C 3 5
C 0 3
C 0 1
C 2 3
C 1 2
C 7 11
C 4 7
C 8 10
C 6 8
C 4 6
C 9 12
C 5 9
C 3 5
C 3 4
C 2 3
C 5 6
C 4 5
C 7 9
C 10 11
C 13 14
C 12 13
C 10 12
C 8 10
C 7 8
C 6 7
C 5 6
C 9 10
C 8 9
C 7 8
C 11 13
C 11 12
C 10 11
