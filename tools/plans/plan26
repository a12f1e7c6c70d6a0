1
C 0 1
C 2 3
C 4 21
R 3 W 2 3 E 2 3 P 2 3
R 3 W 4 21 E 4 21 P 4 21
C 5 6
C 7 8
R 3 W 5 6 E 5 6 P 5 6
R 3 W 7 8 E 7 8 P 7 8
C 9 10
C 11 12
R 3 W 9 10 E 9 10 P 9 10
R 3 W 11 12 E 11 12 P 11 12
C 13 14
C 15 16
R 3 W 13 14 E 13 14 P 13 14
R 3 W 15 16 E 15 16 P 15 16
C 17 18
C 19 20
R 3 W 17 18 E 17 18 P 17 18
R 3 W 19 20 E 19 20 P 19 20
C 22 23
R 3 W 22 23 E 22 23 P 22 23
C 24 25
R 3 W 0 1 E 0 1 P 0 1
R 3 W 24 25 E 24 25 P 24 25
C 0 24
C 1 25
C 3 21
R 6 W 0 1 24 25 E 0 1 0 24 1 25 24 25 P 1 24 0 25
C 5 7
C 6 8
C 9 11
C 10 12
R 6 W 5 6 7 8 E 5 6 5 7 6 8 7 8 P 6 7 5 8
R 6 W 9 10 11 12 E 9 10 9 11 10 12 11 12 P 10 11 9 12
C 13 15
C 14 16
C 17 19
C 18 20
R 6 W 13 14 15 16 E 13 14 13 15 14 16 15 16 P 14 15 13 16
R 6 W 17 18 19 20 E 17 18 17 19 18 20 19 20 P 18 19 17 20
C 3 23
C 4 22
C 2 22
C 5 9
C 6 10
C 7 11
C 8 12
C 13 17
C 14 18
C 15 19
C 16 20
R 20 W 5 6 7 8 9 10 11 12 E 5 6 5 7 5 9 6 8 6 10 7 8 7 11 9 10 9 11 8 12 10 12 11 12 P 6 11 7 12 5 8 9 10
R 20 W 13 14 15 16 17 18 19 20 E 13 14 13 15 13 17 14 16 14 18 15 16 15 19 17 18 17 19 16 20 18 20 19 20 P 14 19 15 20 13 16 17 18
C 0 4
C 0 2
C 1 3
C 21 25
C 4 21
C 2 4
C 22 24
C 23 25
C 21 23
C 5 13
C 6 14
C 7 15
C 8 16
C 9 17
C 10 18
C 11 19
C 12 20
R 168 W 5 6 7 8 9 10 11 12 13 14 15 16 17 18 19 20 E 5 6 5 7 5 9 5 13 6 8 6 10 6 14 7 8 7 11 7 15 9 10 9 11 9 17 13 14 13 15 13 17 8 12 8 16 10 12 10 18 11 12 11 19 14 16 14 18 15 16 15 19 17 18 17 19 12 20 16 20 18 20 19 20 P 8 17 12 10 6 16 14 11 7 20 15 13 18 19 9 5
C 0 5
C 1 7
C 2 9
C 3 10
C 3 7
C 4 14
C 5 13
C 1 5
C 7 17
C 4 7
C 10 19
C 11 21
C 11 13
C 5 11
C 15 22
C 6 15
C 2 6
C 1 2
C 3 15
C 4 6
C 4 5
C 2 4
C 6 11
C 13 15
C 16 23
C 16 17
C 7 16
C 18 24
C 18 22
C 8 18
C 8 9
C 3 8
C 3 6
C 3 4
C 8 11
C 5 8
C 10 22
C 17 22
C 18 21
C 9 18
C 7 9
C 16 18
C 19 23
C 19 21
C 20 25
C 12 20
C 12 14
C 10 12
C 10 13
C 7 10
C 6 7
C 5 6
C 4 5
C 7 8
C 6 7
C 12 15
C 9 12
C 9 10
C 13 16
C 11 13
C 9 11
C 8 9
C 10 13
C 10 11
C 15 18
C 15 16
C 20 24
C 14 20
C 14 19
C 14 17
C 12 14
C 12 15
C 12 13
C 14 16
C 14 15
C 19 22
C 18 19
C 20 21
C 17 20
C 17 18
C 16 17
C 19 20
C 18 19
C 23 24
C 21 23
C 21 22
C 20 21
