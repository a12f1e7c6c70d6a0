1
C 0 1
C 2 3
R 3 W 0 1 E 0 1 P 0 1
R 3 W 2 3 E 2 3 P 2 3
C 4 5
C 6 7
R 3 W 4 5 E 4 5 P 4 5
R 3 W 6 7 E 6 7 P 6 7
C 8 9
C 10 11
R 3 W 8 9 E 8 9 P 8 9
R 3 W 10 11 E 10 11 P 10 11
C 12 13
C 14 15
R 3 W 12 13 E 12 13 P 12 13
R 3 W 14 15 E 14 15 P 14 15
C 16 17
R 3 W 16 17 E 16 17 P 16 17
C 18 19
C 20 21
R 3 W 18 19 E 18 19 P 18 19
R 3 W 20 21 E 20 21 P 20 21
C 22 23
C 24 25
R 3 W 22 23 E 22 23 P 22 23
R 3 W 24 25 E 24 25 P 24 25
C 26 27
C 28 29
R 3 W 26 27 E 26 27 P 26 27
R 3 W 28 29 E 28 29 P 28 29
C 0 2
C 1 3
C 4 6
C 5 7
R 6 W 0 1 2 3 E 0 1 0 2 1 3 2 3 P 1 2 0 3
R 6 W 4 5 6 7 E 4 5 4 6 5 7 6 7 P 5 6 4 7
C 8 10
C 9 11
R 6 W 8 9 10 11 E 8 9 8 10 9 11 10 11 P 9 10 8 11
C 13 15
C 18 20
C 19 21
R 6 W 18 19 20 21 E 18 19 18 20 19 21 20 21 P 19 20 18 21
C 22 24
C 23 25
C 26 28
C 27 29
R 6 W 22 23 24 25 E 22 23 22 24 23 25 24 25 P 23 24 22 25
R 6 W 26 27 28 29 E 26 27 26 28 27 29 28 29 P 27 28 26 29
C 9 17
C 0 4
C 1 5
C 2 6
C 3 7
R 20 W 0 1 2 3 4 5 6 7 E 0 1 0 2 0 4 1 3 1 5 2 3 2 6 4 5 4 6 3 7 5 7 6 7 P 1 6 2 7 0 3 4 5
C 22 26
C 23 27
C 24 28
C 25 29
R 20 W 22 23 24 25 26 27 28 29 E 22 23 22 24 22 26 23 25 23 27 24 25 24 28 26 27 26 28 25 29 27 29 28 29 P 23 28 24 29 22 25 26 27
C 12 20
C 13 19
C 15 21
C 1 9
C 3 17
C 5 11
C 12 26
C 13 23
C 15 27
C 18 24
C 19 25
C 20 28
C 21 29
C 1 13
C 3 15
C 3 13
C 5 19
C 7 21
C 9 23
C 5 9
C 3 5
C 7 23
C 9 13
C 5 9
C 7 13
C 11 25
C 11 15
C 14 16
C 8 14
C 0 8
C 2 14
C 2 12
C 8 22
C 2 8
C 10 16
C 4 10
C 4 18
C 0 4
C 0 2
C 4 8
C 2 4
C 6 16
C 6 20
C 6 22
C 10 24
C 10 12
C 8 10
C 14 26
C 14 18
C 1 14
C 6 14
C 6 8
C 4 6
C 10 14
C 8 10
C 1 8
C 1 2
C 2 4
C 12 18
C 16 28
C 15 28
C 15 23
C 16 26
C 17 27
C 17 19
C 11 17
C 7 11
C 7 9
C 13 17
C 11 13
C 20 24
C 16 20
C 16 22
C 12 16
C 12 14
C 10 12
C 18 22
C 16 18
C 3 18
C 3 10
C 3 6
C 3 4
C 14 16
C 21 27
C 24 26
C 11 26
C 11 18
C 20 24
C 9 24
C 9 16
C 20 22
C 5 20
C 5 12
C 5 8
C 5 6
C 7 22
C 7 14
C 7 10
C 7 8
C 9 12
C 9 10
C 11 14
C 11 12
C 25 29
C 21 25
C 19 21
C 15 19
C 15 17
C 13 15
C 13 20
C 13 16
C 13 14
C 15 22
C 15 18
C 15 16
C 21 23
C 19 21
C 17 19
C 17 24
C 17 20
C 17 18
C 19 26
C 19 22
C 19 20
C 21 28
C 21 24
C 21 22
C 27 29
C 25 27
C 23 25
C 23 26
C 23 24
C 27 28
C 25 27
C 25 26
