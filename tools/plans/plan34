0
C 0 33
C 1 2
C 3 4
R 3 W 1 2 E 1 2 P 1 2
R 3 W 3 4 E 3 4 P 3 4
C 5 6
C 7 8
R 3 W 5 6 E 5 6 P 5 6
R 3 W 7 8 E 7 8 P 7 8
C 9 10
C 11 12
R 3 W 9 10 E 9 10 P 9 10
R 3 W 11 12 E 11 12 P 11 12
C 13 14
C 15 16
R 3 W 13 14 E 13 14 P 13 14
R 3 W 15 16 E 15 16 P 15 16
C 17 18
C 19 20
R 3 W 17 18 E 17 18 P 17 18
R 3 W 19 20 E 19 20 P 19 20
C 21 22
C 23 24
R 3 W 21 22 E 21 22 P 21 22
R 3 W 23 24 E 23 24 P 23 24
C 25 26
C 27 28
R 3 W 25 26 E 25 26 P 25 26
R 3 W 27 28 E 27 28 P 27 28
C 29 30
C 31 32
R 3 W 29 30 E 29 30 P 29 30
R 3 W 31 32 E 31 32 P 31 32
C 1 3
C 2 4
C 5 7
C 6 8
R 6 W 1 2 3 4 E 1 2 1 3 2 4 3 4 P 2 3 1 4
R 6 W 5 6 7 8 E 5 6 5 7 6 8 7 8 P 6 7 5 8
C 9 11
C 10 12
C 13 15
C 14 16
R 6 W 9 10 11 12 E 9 10 9 11 10 12 11 12 P 10 11 9 12
R 6 W 13 14 15 16 E 13 14 13 15 14 16 15 16 P 14 15 13 16
C 17 19
C 18 20
C 21 23
C 22 24
R 6 W 17 18 19 20 E 17 18 17 19 18 20 19 20 P 18 19 17 20
R 6 W 21 22 23 24 E 21 22 21 23 22 24 23 24 P 22 23 21 24
C 25 27
C 26 28
C 29 31
C 30 32
R 6 W 25 26 27 28 E 25 26 25 27 26 28 27 28 P 26 27 25 28
R 6 W 29 30 31 32 E 29 30 29 31 30 32 31 32 P 30 31 29 32
C 1 5
C 2 6
C 3 7
C 4 8
C 9 13
C 10 14
C 11 15
C 12 16
R 20 W 1 2 3 4 5 6 7 8 E 1 2 1 3 1 5 2 4 2 6 3 4 3 7 5 6 5 7 4 8 6 8 7 8 P 2 7 3 8 1 4 5 6
R 20 W 9 10 11 12 13 14 15 16 E 9 10 9 11 9 13 10 12 10 14 11 12 11 15 13 14 13 15 12 16 14 16 15 16 P 10 15 11 16 9 12 13 14
C 17 21
C 18 22
C 19 23
C 20 24
C 25 29
C 26 30
C 27 31
C 28 32
R 20 W 17 18 19 20 21 22 23 24 E 17 18 17 19 17 21 18 20 18 22 19 20 19 23 21 22 21 23 20 24 22 24 23 24 P 18 23 19 24 17 20 21 22
R 20 W 25 26 27 28 29 30 31 32 E 25 26 25 27 25 29 26 28 26 30 27 28 27 31 29 30 29 31 28 32 30 32 31 32 P 26 31 27 32 25 28 29 30
C 1 9
C 2 10
C 3 11
C 4 12
C 5 13
C 6 14
C 7 15
C 8 16
C 17 25
C 18 26
C 19 27
C 20 28
C 21 29
C 22 30
C 23 31
C 24 32
R 168 W 1 2 3 4 5 6 7 8 9 10 11 12 13 14 15 16 E 1 2 1 3 1 5 1 9 2 4 2 6 2 10 3 4 3 7 3 11 5 6 5 7 5 13 9 10 9 11 9 13 4 8 4 12 6 8 6 14 7 8 7 15 10 12 10 14 11 12 11 15 13 14 13 15 8 16 12 16 14 16 15 16 P 4 13 8 6 2 12 10 7 3 16 11 9 14 15 5 1
R 168 W 17 18 19 20 21 22 23 24 25 26 27 28 29 30 31 32 E 17 18 17 19 17 21 17 25 18 20 18 22 18 26 19 20 19 23 19 27 21 22 21 23 21 29 25 26 25 27 25 29 20 24 20 28 22 24 22 30 23 24 23 31 26 28 26 30 27 28 27 31 29 30 29 31 24 32 28 32 30 32 31 32 P 20 29 24 22 18 28 26 23 19 32 27 25 30 31 21 17
C 1 17
C 2 18
C 3 19
C 2 3
C 4 20
C 5 21
C 5 17
C 6 22
C 7 23
C 8 24
C 9 25
C 2 9
C 10 26
C 7 10
C 11 27
C 6 11
C 12 28
C 8 12
C 13 29
C 14 30
C 15 31
C 14 15
C 8 14
C 16 32
C 16 28
C 18 19
C 21 25
C 19 25
C 8 19
C 14 25
C 22 27
C 23 26
C 30 31
C 24 31
R 3 W 0 33 E 0 33 P 0 33
C 0 4
C 0 7
C 0 9
C 0 5
C 0 1
C 4 13
C 4 18
C 7 21
C 3 7
C 3 5
C 9 17
C 7 17
C 13 23
C 13 22
C 18 21
C 23 27
C 29 33
C 20 29
C 10 20
C 6 10
C 4 6
C 4 9
C 2 4
C 1 2
C 3 4
C 2 3
C 5 9
C 4 5
C 10 13
C 8 10
C 11 20
C 11 18
C 6 11
C 6 7
C 7 8
C 7 9
C 6 7
C 5 6
C 11 17
C 8 11
C 8 9
C 7 8
C 10 17
C 13 19
C 15 29
C 18 21
C 20 23
C 14 20
C 13 14
C 19 20
C 23 25
C 26 33
C 12 26
C 12 15
C 15 22
C 12 15
C 12 18
C 12 13
C 10 12
C 11 12
C 10 11
C 9 10
C 13 17
C 14 18
C 15 21
C 15 19
C 14 15
C 13 14
C 12 13
C 18 19
C 20 21
C 24 33
C 16 24
C 26 30
C 16 26
C 27 29
C 22 27
C 16 22
C 16 23
C 16 20
C 16 17
C 15 16
C 14 15
C 17 18
C 16 17
C 19 20
C 18 19
C 21 23
C 24 29
C 26 27
C 25 26
C 22 25
C 21 22
C 20 21
C 22 23
C 28 33
C 28 30
C 24 28
C 24 26
C 24 25
C 23 24
C 26 27
C 25 26
C 29 31
C 29 30
C 28 29
C 27 28
C 32 33
C 31 32
C 30 31
