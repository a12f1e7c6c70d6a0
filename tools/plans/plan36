1
C 0 1
C 2 3
C 4 5
R 3 W 2 3 E 2 3 P 2 3
R 3 W 4 5 E 4 5 P 4 5
C 6 7
C 8 9
R 3 W 6 7 E 6 7 P 6 7
R 3 W 8 9 E 8 9 P 8 9
C 10 11
C 12 13
R 3 W 10 11 E 10 11 P 10 11
R 3 W 12 13 E 12 13 P 12 13
C 14 15
C 16 17
R 3 W 14 15 E 14 15 P 14 15
R 3 W 16 17 E 16 17 P 16 17
C 18 19
C 20 21
R 3 W 18 19 E 18 19 P 18 19
R 3 W 20 21 E 20 21 P 20 21
C 22 23
C 24 25
R 3 W 22 23 E 22 23 P 22 23
R 3 W 24 25 E 24 25 P 24 25
C 26 27
C 28 29
R 3 W 26 27 E 26 27 P 26 27
R 3 W 28 29 E 28 29 P 28 29
C 30 31
C 32 33
R 3 W 30 31 E 30 31 P 30 31
R 3 W 32 33 E 32 33 P 32 33
C 34 35
R 3 W 0 1 E 0 1 P 0 1
R 3 W 34 35 E 34 35 P 34 35
C 0 34
C 1 35
C 2 4
C 3 5
C 6 8
C 7 9
R 6 W 2 3 4 5 E 2 3 2 4 3 5 4 5 P 3 4 2 5
R 6 W 6 7 8 9 E 6 7 6 8 7 9 8 9 P 7 8 6 9
C 10 12
C 11 13
C 14 16
C 15 17
R 6 W 10 11 12 13 E 10 11 10 12 11 13 12 13 P 11 12 10 13
R 6 W 14 15 16 17 E 14 15 14 16 15 17 16 17 P 15 16 14 17
C 18 20
C 19 21
C 22 24
C 23 25
R 6 W 18 19 20 21 E 18 19 18 20 19 21 20 21 P 19 20 18 21
R 6 W 22 23 24 25 E 22 23 22 24 23 25 24 25 P 23 24 22 25
C 26 28
C 27 29
C 30 32
C 31 33
R 6 W 26 27 28 29 E 26 27 26 28 27 29 28 29 P 27 28 26 29
R 6 W 30 31 32 33 E 30 31 30 32 31 33 32 33 P 31 32 30 33
C 2 6
C 3 7
C 4 8
C 5 9
C 10 14
C 11 15
C 12 16
C 13 17
R 20 W 2 3 4 5 6 7 8 9 E 2 3 2 4 2 6 3 5 3 7 4 5 4 8 6 7 6 8 5 9 7 9 8 9 P 3 8 4 9 2 5 6 7
R 20 W 10 11 12 13 14 15 16 17 E 10 11 10 12 10 14 11 13 11 15 12 13 12 16 14 15 14 16 13 17 15 17 16 17 P 11 16 12 17 10 13 14 15
C 18 22
C 19 23
C 20 24
C 21 25
C 26 30
C 27 31
C 28 32
C 29 33
R 20 W 18 19 20 21 22 23 24 25 E 18 19 18 20 18 22 19 21 19 23 20 21 20 24 22 23 22 24 21 25 23 25 24 25 P 19 24 20 25 18 21 22 23
R 20 W 26 27 28 29 30 31 32 33 E 26 27 26 28 26 30 27 29 27 31 28 29 28 32 30 31 30 32 29 33 31 33 32 33 P 27 32 28 33 26 29 30 31
C 2 10
C 3 11
C 4 12
C 5 13
C 6 14
C 7 15
C 8 16
C 9 17
C 18 26
C 19 27
C 20 28
C 21 29
C 22 30
C 23 31
C 24 32
C 25 33
R 168 W 2 3 4 5 6 7 8 9 10 11 12 13 14 15 16 17 E 2 3 2 4 2 6 2 10 3 5 3 7 3 11 4 5 4 8 4 12 6 7 6 8 6 14 10 11 10 12 10 14 5 9 5 13 7 9 7 15 8 9 8 16 11 13 11 15 12 13 12 16 14 15 14 16 9 17 13 17 15 17 16 17 P 5 14 9 7 3 13 11 8 4 17 12 10 15 16 6 2
R 168 W 18 19 20 21 22 23 24 25 26 27 28 29 30 31 32 33 E 18 19 18 20 18 22 18 26 19 21 19 23 19 27 20 21 20 24 20 28 22 23 22 24 22 30 26 27 26 28 26 30 21 25 21 29 23 25 23 31 24 25 24 32 27 29 27 31 28 29 28 32 30 31 30 32 25 33 29 33 31 33 32 33 P 21 30 25 23 19 29 27 24 20 33 28 26 31 32 22 18
C 2 18
C 3 19
C 4 20
C 5 21
C 6 22
C 7 23
C 8 24
C 9 25
C 10 26
C 4 10
C 8 26
C 11 27
C 5 11
C 9 27
C 11 19
C 12 28
C 12 22
C 13 29
C 13 23
C 14 30
C 14 20
C 15 31
C 15 21
C 16 32
C 17 33
C 24 30
C 16 24
C 25 31
R 6 W 0 1 34 35 E 0 1 0 34 1 35 34 35 P 1 34 0 35
C 0 2
C 1 3
C 1 10
C 2 12
C 2 18
C 3 22
C 3 12
C 3 8
C 6 18
C 1 6
C 8 20
C 10 18
C 12 30
C 12 26
C 20 26
C 21 30
C 22 28
C 16 22
C 24 28
C 22 24
C 28 31
C 32 34
C 13 32
C 7 13
C 7 11
C 4 7
C 2 4
C 1 2
C 4 6
C 2 4
C 7 8
C 7 10
C 8 18
C 13 19
C 11 13
C 11 20
C 13 26
C 13 18
C 25 34
C 33 35
C 23 33
C 17 33
C 17 29
C 17 25
C 23 32
C 5 23
C 5 14
C 3 5
C 3 7
C 3 4
C 5 8
C 6 7
C 4 6
C 7 10
C 9 23
C 12 14
C 11 12
C 5 11
C 5 7
C 5 6
C 8 12
C 8 10
C 14 16
C 21 23
C 19 21
C 19 20
C 21 26
C 27 32
C 15 27
C 9 15
C 9 22
C 9 14
C 9 13
C 9 11
C 8 9
C 7 8
C 10 11
C 9 10
C 14 18
C 13 14
C 15 24
C 15 16
C 15 19
C 12 15
C 12 13
C 11 12
C 14 15
C 13 14
C 16 20
C 18 19
C 23 24
C 27 28
C 17 27
C 17 22
C 17 21
C 16 17
C 16 18
C 15 16
C 17 19
C 17 18
C 22 26
C 21 22
C 25 28
C 29 34
C 30 32
C 27 30
C 23 27
C 20 23
C 20 21
C 19 20
C 22 23
C 21 22
C 24 30
C 24 26
C 28 32
C 31 33
C 29 31
C 28 29
C 25 28
C 25 27
C 24 25
C 23 24
C 26 27
C 25 26
C 28 30
C 27 28
C 33 34
C 31 33
C 31 32
C 29 31
C 29 30
