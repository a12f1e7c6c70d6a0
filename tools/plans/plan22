1
C 0 1
C 2 3
R 3 W 0 1 E 0 1 P 0 1
R 3 W 2 3 E 2 3 P 2 3
C 4 5
C 6 7
R 3 W 4 5 E 4 5 P 4 5
R 3 W 6 7 E 6 7 P 6 7
C 8 9
C 10 11
C 12 13
R 3 W 8 9 E 8 9 P 8 9
R 3 W 12 13 E 12 13 P 12 13
C 14 15
C 16 17
R 3 W 14 15 E 14 15 P 14 15
R 3 W 16 17 E 16 17 P 16 17
C 18 19
C 20 21
R 3 W 18 19 E 18 19 P 18 19
R 3 W 20 21 E 20 21 P 20 21
C 0 2
C 1 3
C 4 6
C 5 7
R 6 W 0 1 2 3 E 0 1 0 2 1 3 2 3 P 1 2 0 3
R 6 W 4 5 6 7 E 4 5 4 6 5 7 6 7 P 5 6 4 7
C 8 12
C 9 13
C 9 12
R 5 W 8 9 12 13 E 8 9 9 12 12 13 P 9 12 8 13
R 3 W 10 11 E 10 11 P 10 11
C 14 16
C 15 17
C 18 20
C 19 21
R 6 W 14 15 16 17 E 14 15 14 16 15 17 16 17 P 15 16 14 17
R 6 W 18 19 20 21 E 18 19 18 20 19 21 20 21 P 19 20 18 21
C 8 10
C 10 12
C 11 13
C 9 11
C 0 4
C 1 5
C 2 6
C 3 7
C 14 18
C 15 19
C 16 20
C 17 21
R 20 W 0 1 2 3 4 5 6 7 E 0 1 0 2 0 4 1 3 1 5 2 3 2 6 4 5 4 6 3 7 5 7 6 7 P 1 6 2 7 0 3 4 5
R 20 W 14 15 16 17 18 19 20 21 E 14 15 14 16 14 18 15 17 15 19 16 17 16 20 18 19 18 20 17 21 19 21 20 21 P 15 20 16 21 14 17 18 19
C 0 14
C 1 15
C 2 18
C 3 19
C 4 16
C 5 17
C 6 20
C 7 21
R 168 W 0 1 2 3 4 5 6 7 14 15 16 17 18 19 20 21 E 0 1 0 2 0 4 0 14 1 3 1 5 1 15 2 3 2 6 2 18 4 5 4 6 4 16 14 15 14 16 14 18 3 7 3 19 5 7 5 17 6 7 6 20 15 17 15 19 16 17 16 20 18 19 18 20 7 21 17 21 19 21 20 21 P 3 16 7 5 1 19 15 6 2 21 18 14 17 20 4 0
R 9 W 8 9 12 13 10 11 E 8 9 8 10 9 12 9 11 10 12 10 11 12 13 11 13 P 9 12 8 13 10 11
C 2 8
C 0 2
C 3 11
C 3 16
C 6 9
C 6 14
C 2 6
C 10 18
C 1 10
C 3 10
C 5 18
C 11 20
C 11 18
C 12 15
C 7 15
C 8 12
C 4 8
C 1 4
C 1 2
C 4 6
C 2 4
C 5 12
C 8 14
C 3 8
C 10 14
C 5 10
C 5 6
C 3 5
C 3 4
C 13 19
C 9 13
C 9 16
C 9 12
C 12 14
C 10 12
C 13 17
C 7 13
C 7 11
C 7 9
C 7 8
C 6 7
C 5 6
C 8 10
C 7 8
C 11 16
C 9 11
C 9 12
C 9 10
C 13 18
C 13 14
C 11 13
C 11 12
C 17 20
C 19 21
C 15 19
C 15 17
C 15 16
C 14 15
C 13 14
C 16 18
C 15 16
C 19 20
C 17 19
C 17 18
