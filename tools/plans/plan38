1
C 0 1
C 2 3
R 3 W 0 1 E 0 1 P 0 1
R 3 W 2 3 E 2 3 P 2 3
C 4 5
C 6 7
R 3 W 4 5 E 4 5 P 4 5
R 3 W 6 7 E 6 7 P 6 7
C 8 9
C 10 11
R 3 W 8 9 E 8 9 P 8 9
R 3 W 10 11 E 10 11 P 10 11
C 12 13
C 14 15
R 3 W 12 13 E 12 13 P 12 13
R 3 W 14 15 E 14 15 P 14 15
C 16 17
C 18 19
C 20 21
R 3 W 16 17 E 16 17 P 16 17
R 3 W 20 21 E 20 21 P 20 21
C 22 23
C 24 25
R 3 W 22 23 E 22 23 P 22 23
R 3 W 24 25 E 24 25 P 24 25
C 26 27
C 28 29
R 3 W 26 27 E 26 27 P 26 27
R 3 W 28 29 E 28 29 P 28 29
C 30 31
C 32 33
R 3 W 30 31 E 30 31 P 30 31
R 3 W 32 33 E 32 33 P 32 33
C 34 35
C 36 37
R 3 W 34 35 E 34 35 P 34 35
R 3 W 36 37 E 36 37 P 36 37
C 0 2
C 1 3
C 4 6
C 5 7
R 6 W 0 1 2 3 E 0 1 0 2 1 3 2 3 P 1 2 0 3
R 6 W 4 5 6 7 E 4 5 4 6 5 7 6 7 P 5 6 4 7
C 8 10
C 9 11
C 12 14
C 13 15
R 6 W 8 9 10 11 E 8 9 8 10 9 11 10 11 P 9 10 8 11
R 6 W 12 13 14 15 E 12 13 12 14 13 15 14 15 P 13 14 12 15
C 16 20
C 17 21
R 6 W 16 17 20 21 E 16 17 16 20 17 21 20 21 P 17 20 16 21
R 3 W 18 19 E 18 19 P 18 19
C 22 24
C 23 25
C 26 28
C 27 29
R 6 W 22 23 24 25 E 22 23 22 24 23 25 24 25 P 23 24 22 25
R 6 W 26 27 28 29 E 26 27 26 28 27 29 28 29 P 27 28 26 29
C 30 32
C 31 33
C 34 36
C 35 37
R 6 W 30 31 32 33 E 30 31 30 32 31 33 32 33 P 31 32 30 33
R 6 W 34 35 36 37 E 34 35 34 36 35 37 36 37 P 35 36 34 37
C 16 18
C 18 20
C 19 21
C 17 19
C 17 18
C 19 20
C 0 4
C 1 5
C 2 6
C 3 7
C 8 12
C 9 13
C 10 14
C 11 15
R 20 W 0 1 2 3 4 5 6 7 E 0 1 0 2 0 4 1 3 1 5 2 3 2 6 4 5 4 6 3 7 5 7 6 7 P 1 6 2 7 0 3 4 5
R 20 W 8 9 10 11 12 13 14 15 E 8 9 8 10 8 12 9 11 9 13 10 11 10 14 12 13 12 14 11 15 13 15 14 15 P 9 14 10 15 8 11 12 13
C 22 26
C 23 27
C 24 28
C 25 29
C 30 34
C 31 35
C 32 36
C 33 37
R 20 W 22 23 24 25 26 27 28 29 E 22 23 22 24 22 26 23 25 23 27 24 25 24 28 26 27 26 28 25 29 27 29 28 29 P 23 28 24 29 22 25 26 27
R 20 W 30 31 32 33 34 35 36 37 E 30 31 30 32 30 34 31 33 31 35 32 33 32 36 34 35 34 36 33 37 35 37 36 37 P 31 36 32 37 30 33 34 35
C 0 8
C 1 9
C 2 10
C 3 11
C 4 12
C 5 13
C 6 14
C 7 15
C 22 30
C 23 31
C 24 32
C 25 33
C 26 34
C 27 35
C 28 36
C 29 37
R 168 W 0 1 2 3 4 5 6 7 8 9 10 11 12 13 14 15 E 0 1 0 2 0 4 0 8 1 3 1 5 1 9 2 3 2 6 2 10 4 5 4 6 4 12 8 9 8 10 8 12 3 7 3 11 5 7 5 13 6 7 6 14 9 11 9 13 10 11 10 14 12 13 12 14 7 15 11 15 13 15 14 15 P 3 12 7 5 1 11 9 6 2 15 10 8 13 14 4 0
R 168 W 22 23 24 25 26 27 28 29 30 31 32 33 34 35 36 37 E 22 23 22 24 22 26 22 30 23 25 23 27 23 31 24 25 24 28 24 32 26 27 26 28 26 34 30 31 30 32 30 34 25 29 25 33 27 29 27 35 28 29 28 36 31 33 31 35 32 33 32 36 34 35 34 36 29 37 33 37 35 37 36 37 P 25 34 29 27 23 33 31 28 24 37 32 30 35 36 26 22
C 0 22
C 1 23
C 2 24
C 1 2
C 3 25
C 4 26
C 5 27
C 6 28
C 7 29
C 8 30
C 4 8
C 9 31
C 6 9
C 10 32
C 5 10
C 5 6
C 6 22
C 9 10
C 11 33
C 7 11
C 12 34
C 3 12
C 13 35
C 14 36
C 13 14
C 7 13
C 15 37
C 23 24
C 25 34
C 26 30
C 24 30
C 27 32
C 28 31
C 27 28
C 29 33
C 31 32
C 15 31
C 35 36
R 8 W 16 17 20 21 18 19 E 16 17 17 18 17 19 18 20 19 20 20 21 P 18 20 17 21 19 16
C 4 17
C 4 6
C 5 17
C 11 18
C 11 22
C 2 11
C 2 6
C 14 21
C 14 28
C 12 14
C 10 12
C 16 23
C 8 16
C 1 8
C 0 1
C 1 4
C 9 23
C 11 16
C 5 11
C 6 11
C 17 24
C 10 17
C 18 34
C 18 24
C 12 18
C 12 17
C 19 26
C 3 19
C 3 8
C 2 3
C 2 4
C 3 5
C 3 4
C 15 26
C 7 15
C 20 33
C 20 32
C 13 20
C 13 19
C 9 13
C 8 9
C 6 8
C 4 6
C 9 10
C 5 9
C 5 6
C 8 9
C 10 11
C 13 16
C 21 29
C 22 30
C 14 22
C 22 30
C 23 25
C 15 23
C 7 15
C 7 12
C 15 17
C 18 23
C 24 28
C 25 27
C 19 25
C 14 19
C 13 14
C 7 13
C 7 10
C 7 8
C 6 7
C 9 10
C 8 9
C 11 13
C 14 15
C 16 19
C 12 16
C 12 14
C 11 12
C 10 11
C 13 14
C 12 13
C 17 19
C 16 17
C 20 27
C 20 25
C 20 22
C 25 30
C 26 35
C 21 26
C 21 24
C 18 21
C 18 20
C 15 18
C 15 16
C 14 15
C 17 18
C 16 17
C 21 25
C 20 21
C 23 24
C 22 23
C 19 22
C 19 20
C 18 19
C 21 22
C 20 21
C 23 25
C 24 30
C 26 32
C 29 36
C 29 34
C 28 29
C 27 28
C 31 33
C 31 35
C 26 31
C 26 27
C 24 26
C 23 24
C 22 23
C 25 26
C 24 25
C 27 30
C 29 31
C 34 35
C 32 34
C 28 32
C 28 29
C 27 28
C 26 27
C 29 30
C 28 29
C 36 37
C 33 36
C 33 35
C 33 34
C 31 33
C 31 32
C 30 31
