0
C 0 1
C 2 3
R 3 W 0 1 E 0 1 P 0 1
R 3 W 2 3 E 2 3 P 2 3
C 4 5
C 6 7
R 3 W 4 5 E 4 5 P 4 5
R 3 W 6 7 E 6 7 P 6 7
C 8 9
C 10 11
R 3 W 8 9 E 8 9 P 8 9
R 3 W 10 11 E 10 11 P 10 11
C 12 14
R 3 W 12 14 E 12 14 P 12 14
C 15 16
C 17 18
R 3 W 15 16 E 15 16 P 15 16
R 3 W 17 18 E 17 18 P 17 18
C 19 20
C 21 22
R 3 W 19 20 E 19 20 P 19 20
R 3 W 21 22 E 21 22 P 21 22
C 23 24
C 25 26
R 3 W 23 24 E 23 24 P 23 24
R 3 W 25 26 E 25 26 P 25 26
C 12 13
C 13 14
C 0 2
C 1 3
C 4 6
C 5 7
C 8 10
C 9 11
R 6 W 4 5 6 7 E 4 5 4 6 5 7 6 7 P 5 6 4 7
R 6 W 8 9 10 11 E 8 9 8 10 9 11 10 11 P 9 10 8 11
C 15 17
C 16 18
C 19 21
C 20 22
R 6 W 15 16 17 18 E 15 16 15 17 16 18 17 18 P 16 17 15 18
R 6 W 19 20 21 22 E 19 20 19 21 20 22 21 22 P 20 21 19 22
C 23 25
C 24 26
R 6 W 0 1 2 3 E 0 1 0 2 1 3 2 3 P 1 2 0 3
R 6 W 23 24 25 26 E 23 24 23 25 24 26 25 26 P 24 25 23 26
C 0 23
C 1 24
C 2 25
C 3 26
C 4 8
C 5 9
C 6 10
C 7 11
R 20 W 0 1 2 3 23 24 25 26 E 0 1 0 2 0 23 1 3 1 24 2 3 2 25 23 24 23 25 3 26 24 26 25 26 P 1 25 2 26 0 3 23 24
R 20 W 4 5 6 7 8 9 10 11 E 4 5 4 6 4 8 5 7 5 9 6 7 6 10 8 9 8 10 7 11 9 11 10 11 P 5 10 6 11 4 7 8 9
R 4 W 12 14 13 E 12 13 13 14 P 13 14 12
C 15 19
C 16 20
C 17 21
C 18 22
R 20 W 15 16 17 18 19 20 21 22 E 15 16 15 17 15 19 16 18 16 20 17 18 17 21 19 20 19 21 18 22 20 22 21 22 P 16 21 17 22 15 18 19 20
C 5 13
C 11 14
C 2 19
C 3 20
C 17 23
C 18 24
C 22 26
C 0 4
C 1 6
C 5 17
C 7 22
C 7 23
C 9 21
C 9 25
C 10 24
C 10 19
C 10 17
C 12 16
C 6 16
C 11 16
C 8 11
C 2 8
C 2 5
C 3 11
C 3 17
C 3 10
C 11 23
C 12 15
C 1 12
C 0 1
C 4 15
C 1 4
C 1 2
C 6 12
C 5 6
C 4 5
C 2 4
C 9 15
C 6 9
C 3 6
C 9 10
C 12 15
C 11 15
C 13 20
C 13 18
C 8 13
C 7 13
C 7 8
C 5 7
C 3 5
C 7 9
C 8 12
C 6 8
C 5 6
C 4 5
C 3 4
C 6 7
C 5 6
C 10 12
C 9 10
C 13 17
C 11 13
C 14 26
C 15 17
C 16 21
C 18 19
C 18 23
C 19 23
C 20 24
C 14 24
C 14 20
C 22 25
C 16 22
C 21 25
C 21 22
C 14 21
C 14 16
C 14 18
C 11 14
C 8 11
C 8 9
C 7 8
C 10 11
C 9 10
C 12 14
C 15 18
C 16 19
C 13 16
C 13 15
C 12 13
C 11 12
C 14 15
C 13 14
C 17 19
C 17 18
C 16 17
C 15 16
C 20 22
C 21 23
C 20 21
C 18 20
C 17 18
C 19 21
C 19 20
C 24 25
C 22 24
C 22 23
C 21 22
