1
C 0 1
C 2 3
R 3 W 0 1 E 0 1 P 0 1
R 3 W 2 3 E 2 3 P 2 3
C 4 5
C 6 7
R 3 W 4 5 E 4 5 P 4 5
R 3 W 6 7 E 6 7 P 6 7
C 8 9
C 10 11
R 3 W 8 9 E 8 9 P 8 9
R 3 W 10 11 E 10 11 P 10 11
C 12 13
C 14 15
R 3 W 12 13 E 12 13 P 12 13
R 3 W 14 15 E 14 15 P 14 15
C 16 17
C 18 19
R 3 W 16 17 E 16 17 P 16 17
R 3 W 18 19 E 18 19 P 18 19
C 20 21
C 22 23
R 3 W 20 21 E 20 21 P 20 21
R 3 W 22 23 E 22 23 P 22 23
C 24 25
C 26 27
R 3 W 24 25 E 24 25 P 24 25
R 3 W 26 27 E 26 27 P 26 27
C 28 29
C 30 31
R 3 W 28 29 E 28 29 P 28 29
R 3 W 30 31 E 30 31 P 30 31
C 0 2
C 1 3
C 4 6
C 5 7
R 6 W 0 1 2 3 E 0 1 0 2 1 3 2 3 P 1 2 0 3
R 6 W 4 5 6 7 E 4 5 4 6 5 7 6 7 P 5 6 4 7
C 8 10
C 9 11
C 12 14
C 13 15
R 6 W 8 9 10 11 E 8 9 8 10 9 11 10 11 P 9 10 8 11
R 6 W 12 13 14 15 E 12 13 12 14 13 15 14 15 P 13 14 12 15
C 16 18
C 17 19
C 20 22
C 21 23
R 6 W 16 17 18 19 E 16 17 16 18 17 19 18 19 P 17 18 16 19
R 6 W 20 21 22 23 E 20 21 20 22 21 23 22 23 P 21 22 20 23
C 24 26
C 25 27
C 28 30
C 29 31
R 6 W 24 25 26 27 E 24 25 24 26 25 27 26 27 P 25 26 24 27
R 6 W 28 29 30 31 E 28 29 28 30 29 31 30 31 P 29 30 28 31
C 0 4
C 1 5
C 2 6
C 3 7
C 8 12
C 9 13
C 10 14
C 11 15
R 20 W 0 1 2 3 4 5 6 7 E 0 1 0 2 0 4 1 3 1 5 2 3 2 6 4 5 4 6 3 7 5 7 6 7 P 1 6 2 7 0 3 4 5
R 20 W 8 9 10 11 12 13 14 15 E 8 9 8 10 8 12 9 11 9 13 10 11 10 14 12 13 12 14 11 15 13 15 14 15 P 9 14 10 15 8 11 12 13
C 16 20
C 17 21
C 18 22
C 19 23
C 24 28
C 25 29
C 26 30
C 27 31
R 20 W 16 17 18 19 20 21 22 23 E 16 17 16 18 16 20 17 19 17 21 18 19 18 22 20 21 20 22 19 23 21 23 22 23 P 17 22 18 23 16 19 20 21
R 20 W 24 25 26 27 28 29 30 31 E 24 25 24 26 24 28 25 27 25 29 26 27 26 30 28 29 28 30 27 31 29 31 30 31 P 25 30 26 31 24 27 28 29
C 0 8
C 1 9
C 2 10
C 3 11
C 4 12
C 5 13
C 6 14
C 7 15
C 16 24
C 17 25
C 18 26
C 19 27
C 20 28
C 21 29
C 22 30
C 23 31
R 168 W 0 1 2 3 4 5 6 7 8 9 10 11 12 13 14 15 E 0 1 0 2 0 4 0 8 1 3 1 5 1 9 2 3 2 6 2 10 4 5 4 6 4 12 8 9 8 10 8 12 3 7 3 11 5 7 5 13 6 7 6 14 9 11 9 13 10 11 10 14 12 13 12 14 7 15 11 15 13 15 14 15 P 3 12 7 5 1 11 9 6 2 15 10 8 13 14 4 0
R 168 W 16 17 18 19 20 21 22 23 24 25 26 27 28 29 30 31 E 16 17 16 18 16 20 16 24 17 19 17 21 17 25 18 19 18 22 18 26 20 21 20 22 20 28 24 25 24 26 24 28 19 23 19 27 21 23 21 29 22 23 22 30 25 27 25 29 26 27 26 30 28 29 28 30 23 31 27 31 29 31 30 31 P 19 28 23 21 17 27 25 22 18 31 26 24 29 30 20 16
C 0 16
C 1 17
C 2 18
C 2 16
C 3 19
C 4 20
C 1 4
C 1 2
C 3 20
C 4 16
C 5 21
C 5 18
C 6 22
C 6 17
C 7 23
C 7 22
C 8 24
C 9 25
C 9 24
C 3 9
C 9 18
C 10 26
C 11 27
C 12 28
C 10 12
C 6 10
C 3 6
C 6 16
C 10 20
C 9 10
C 11 28
C 11 17
C 12 24
C 13 29
C 13 26
C 14 30
C 14 25
C 15 31
C 15 29
C 19 21
C 7 19
C 7 12
C 12 20
C 22 26
C 17 22
C 25 28
C 21 25
C 25 26
C 27 30
C 15 27
C 15 28
C 29 30
C 23 32
C 13 23
C 13 14
C 5 13
C 5 8
C 4 5
C 1 4
C 0 1
C 3 5
C 8 16
C 6 8
C 2 6
C 2 4
C 3 4
C 11 13
C 7 11
C 7 9
C 6 7
C 8 9
C 5 8
C 5 6
C 4 5
C 7 8
C 6 7
C 10 11
C 11 16
C 9 11
C 13 24
C 14 19
C 14 18
C 12 14
C 15 23
C 15 21
C 15 17
C 13 15
C 12 13
C 10 12
C 9 10
C 8 9
C 11 12
C 10 11
C 13 16
C 17 24
C 14 17
C 18 20
C 15 18
C 14 15
C 13 14
C 12 13
C 15 16
C 14 15
C 19 22
C 19 21
C 20 24
C 17 20
C 21 24
C 22 28
C 27 32
C 23 27
C 23 25
C 22 23
C 19 22
C 18 19
C 17 18
C 16 17
C 19 20
C 18 19
C 21 22
C 20 21
C 27 29
C 26 27
C 25 26
C 23 25
C 23 24
C 22 23
C 26 28
C 25 26
C 24 25
C 27 28
C 30 32
C 29 30
C 28 29
C 31 32
