0
C 0 1
C 2 3
R 3 W 0 1 E 0 1 P 0 1
R 3 W 2 3 E 2 3 P 2 3
C 4 5
C 6 7
R 3 W 4 5 E 4 5 P 4 5
R 3 W 6 7 E 6 7 P 6 7
C 8 9
C 10 11
R 3 W 8 9 E 8 9 P 8 9
R 3 W 10 11 E 10 11 P 10 11
C 12 13
C 14 15
R 3 W 12 13 E 12 13 P 12 13
R 3 W 14 15 E 14 15 P 14 15
C 16 28
C 17 26
C 18 25
C 19 23
R 3 W 18 25 E 18 25 P 18 25
R 3 W 19 23 E 19 23 P 19 23
C 21 27
R 3 W 21 27 E 21 27 P 21 27
C 22 24
R 3 W 17 26 E 17 26 P 17 26
R 3 W 22 24 E 22 24 P 22 24
C 20 27
R 3 W 16 28 E 16 28 P 16 28
R 5 W 20 21 27 E 20 27 21 27 P 27 20 21
C 0 2
C 1 3
C 4 6
C 5 7
R 6 W 0 1 2 3 E 0 1 0 2 1 3 2 3 P 1 2 0 3
R 6 W 4 5 6 7 E 4 5 4 6 5 7 6 7 P 5 6 4 7
C 8 10
C 9 11
C 12 14
C 13 15
R 6 W 8 9 10 11 E 8 9 8 10 9 11 10 11 P 9 10 8 11
R 6 W 12 13 14 15 E 12 13 12 14 13 15 14 15 P 13 14 12 15
C 17 22
C 24 26
C 18 19
C 23 25
R 6 W 17 26 22 24 E 17 22 17 24 22 26 24 26 P 22 26 17 24
R 6 W 18 25 19 23 E 18 19 18 23 19 25 23 25 P 19 25 18 23
C 16 20
C 27 28
C 0 4
C 1 5
C 2 6
C 3 7
C 8 12
C 9 13
C 10 14
C 11 15
R 20 W 0 1 2 3 4 5 6 7 E 0 1 0 2 0 4 1 3 1 5 2 3 2 6 4 5 4 6 3 7 5 7 6 7 P 1 6 2 7 0 3 4 5
R 20 W 8 9 10 11 12 13 14 15 E 8 9 8 10 8 12 9 11 9 13 10 11 10 14 12 13 12 14 11 15 13 15 14 15 P 9 14 10 15 8 11 12 13
C 17 18
C 19 22
C 23 24
C 25 26
R 11 W 16 28 20 21 27 E 16 20 16 27 21 28 20 28 27 28 P 20 28 16 21 27
R 20 W 17 26 22 24 18 25 19 23 E 17 18 17 19 17 23 18 22 18 24 19 22 19 25 23 24 23 25 22 26 24 26 25 26 P 22 24 23 26 25 19 17 18
C 16 18
C 16 17
C 20 22
C 21 25
C 24 27
C 26 28
C 0 8
C 1 9
C 1 8
C 2 10
C 3 11
C 4 12
C 5 13
C 6 14
C 7 15
C 2 24
C 3 24
C 4 19
C 2 4
C 4 8
C 5 20
C 6 21
C 0 6
C 0 16
C 1 6
C 2 16
C 7 27
C 7 24
C 9 18
C 6 9
C 6 16
C 10 23
C 5 10
C 5 17
C 1 5
C 1 2
C 8 17
C 4 8
C 4 6
C 2 4
C 9 17
C 9 16
C 8 9
C 11 26
C 12 19
C 3 12
C 3 10
C 3 5
C 3 6
C 3 4
C 5 9
C 5 8
C 10 12
C 13 22
C 13 18
C 14 25
C 14 21
C 15 28
C 15 25
C 18 21
C 7 18
C 20 23
C 14 20
C 13 14
C 10 13
C 14 20
C 12 14
C 19 23
C 11 19
C 7 11
C 7 16
C 7 10
C 6 7
C 5 6
C 4 5
C 7 8
C 6 7
C 12 16
C 9 12
C 19 24
C 11 19
C 11 17
C 11 13
C 10 11
C 9 10
C 8 9
C 11 12
C 10 11
C 14 17
C 13 14
C 21 23
C 20 21
C 23 24
C 26 27
C 15 26
C 15 22
C 15 18
C 15 19
C 15 20
C 15 16
C 13 15
C 12 13
C 14 16
C 14 15
C 17 20
C 18 23
C 19 21
C 18 19
C 17 18
C 16 17
C 19 20
C 18 19
C 21 23
C 25 27
C 22 27
C 25 26
C 22 26
C 24 25
C 22 24
C 21 22
C 20 21
C 22 23
C 24 25
