1
C 3 14
C 5 6
C 0 13
R 3 W 0 13 E 0 13 P 0 13
R 3 W 5 6 E 5 6 P 5 6
C 4 8
R 3 W 3 14 E 3 14 P 3 14
R 3 W 4 8 E 4 8 P 4 8
C 7 11
C 2 15
C 1 12
R 3 W 1 12 E 1 12 P 1 12
R 3 W 7 11 E 7 11 P 7 11
C 9 10
R 3 W 2 15 E 2 15 P 2 15
R 3 W 9 10 E 9 10 P 9 10
C 2 9
C 10 15
C 11 12
C 1 7
R 6 W 7 11 1 12 E 1 7 1 11 7 12 11 12 P 7 11 12 1
R 6 W 2 15 9 10 E 2 9 2 10 9 15 10 15 P 9 15 2 10
C 0 5
C 6 13
R 6 W 0 13 5 6 E 0 5 0 6 5 13 6 13 P 5 13 0 6
C 8 14
C 3 4
R 6 W 4 8 3 14 E 3 4 3 8 4 14 8 14 P 4 8 14 3
C 4 5
C 6 8
C 10 11
C 7 9
C 5 11
C 0 1
C 2 3
C 0 2
C 1 3
C 1 2
C 4 10
C 6 7
C 4 6
C 1 4
C 2 6
C 2 4
C 5 7
C 8 9
C 8 10
C 5 8
C 7 10
C 9 11
C 12 13
C 14 15
C 12 14
C 3 12
C 3 6
C 3 5
C 3 4
C 6 8
C 5 6
C 13 15
C 13 14
C 9 13
C 9 12
C 7 9
C 7 8
C 6 7
C 10 12
C 9 10
C 8 9
C 11 14
C 11 13
C 11 12
