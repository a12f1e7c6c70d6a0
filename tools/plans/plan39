1
C 1 2
R 3 W 1 2 E 1 2 P 1 2
C 3 6
C 4 5
R 3 W 3 6 E 3 6 P 3 6
R 3 W 4 5 E 4 5 P 4 5
C 7 14
C 8 9
C 10 11
R 3 W 8 9 E 8 9 P 8 9
R 3 W 10 11 E 10 11 P 10 11
C 12 13
R 3 W 7 14 E 7 14 P 7 14
R 3 W 12 13 E 12 13 P 12 13
C 15 38
C 16 17
C 18 19
R 3 W 16 17 E 16 17 P 16 17
R 3 W 18 19 E 18 19 P 18 19
C 20 21
C 22 23
R 3 W 20 21 E 20 21 P 20 21
R 3 W 22 23 E 22 23 P 22 23
C 24 25
C 26 27
R 3 W 24 25 E 24 25 P 24 25
R 3 W 26 27 E 26 27 P 26 27
C 28 29
C 30 31
R 3 W 28 29 E 28 29 P 28 29
R 3 W 30 31 E 30 31 P 30 31
C 32 33
C 34 35
R 3 W 32 33 E 32 33 P 32 33
R 3 W 34 35 E 34 35 P 34 35
C 36 37
R 3 W 15 38 E 15 38 P 15 38
R 3 W 36 37 E 36 37 P 36 37
C 0 1
C 3 4
C 5 6
R 5 W 0 1 2 E 0 1 0 2 P 0 1 2
R 6 W 3 6 4 5 E 3 4 3 5 4 6 5 6 P 4 6 3 5
C 7 12
C 13 14
C 8 10
C 9 11
R 6 W 7 14 12 13 E 7 12 7 13 12 14 13 14 P 12 14 7 13
R 6 W 8 9 10 11 E 8 9 8 10 9 11 10 11 P 9 10 8 11
C 15 36
C 37 38
C 16 18
C 17 19
C 20 22
C 21 23
R 6 W 16 17 18 19 E 16 17 16 18 17 19 18 19 P 17 18 16 19
R 6 W 20 21 22 23 E 20 21 20 22 21 23 22 23 P 21 22 20 23
C 24 26
C 25 27
C 28 30
C 29 31
R 6 W 24 25 26 27 E 24 25 24 26 25 27 26 27 P 25 26 24 27
R 6 W 28 29 30 31 E 28 29 28 30 29 31 30 31 P 29 30 28 31
C 32 34
C 33 35
R 6 W 15 38 36 37 E 15 36 15 37 36 38 37 38 P 36 38 15 37
R 6 W 32 33 34 35 E 32 33 32 34 33 35 34 35 P 33 34 32 35
C 0 3
C 1 4
C 2 5
C 7 8
C 9 13
C 10 12
C 11 14
R 19 W 0 1 2 3 6 4 5 E 0 1 0 2 0 3 1 6 1 4 2 6 2 5 3 4 3 5 P 1 2 3 0 6 4 5
R 20 W 7 14 12 13 8 9 10 11 E 7 8 7 9 7 10 8 12 8 13 9 13 9 11 10 12 10 11 12 14 13 14 11 14 P 12 13 9 14 10 11 7 8
C 15 32
C 33 37
C 34 36
C 35 38
C 16 20
C 17 21
C 17 20
C 18 22
C 19 23
C 19 22
C 24 28
C 25 29
C 26 30
C 27 31
R 20 W 15 38 36 37 32 33 34 35 E 15 32 15 33 15 34 32 36 32 37 33 37 33 35 34 36 34 35 36 38 37 38 35 38 P 36 37 33 38 34 35 15 32
R 20 W 24 25 26 27 28 29 30 31 E 24 25 24 26 24 28 25 27 25 29 26 27 26 30 28 29 28 30 27 31 29 31 30 31 P 25 30 26 31 24 27 28 29
C 0 7
C 1 10
C 2 9
C 3 8
C 4 12
C 5 13
C 6 11
C 15 24
C 25 33
C 26 34
C 27 35
C 28 32
C 29 37
C 30 36
C 31 38
R 167 W 0 1 2 3 6 4 5 7 14 12 13 8 9 10 11 E 0 1 0 2 0 3 0 7 1 6 1 4 1 10 2 6 2 5 2 9 3 4 3 5 3 8 7 8 7 9 7 10 6 14 6 11 4 14 4 12 5 14 5 13 8 12 8 13 9 13 9 11 10 12 10 11 P 6 8 4 1 5 13 9 2 10 11 12 7 14 3 0
R 168 W 15 38 36 37 32 33 34 35 24 25 26 27 28 29 30 31 E 15 24 15 25 15 26 15 28 24 32 24 33 24 34 25 33 25 27 25 29 26 34 26 27 26 30 28 32 28 29 28 30 32 36 32 37 33 37 33 35 34 36 34 35 27 35 27 31 29 37 29 31 30 36 30 31 36 38 37 38 35 38 31 38 P 32 27 36 33 24 37 29 26 31 25 34 28 38 30 35 15
C 0 15
C 1 26
C 2 25
C 1 2
C 3 28
C 4 30
C 5 29
C 6 27
C 7 24
C 8 32
C 6 8
C 9 33
C 4 9
C 4 6
C 8 9
C 10 34
C 5 10
C 11 35
C 12 36
C 13 37
C 12 13
C 14 31
C 25 26
C 5 25
C 27 32
C 29 34
C 13 34
C 30 33
C 27 30
C 32 33
C 36 37
R 15 W 16 17 18 19 20 21 22 23 E 16 17 16 18 17 19 17 20 18 19 20 21 20 22 19 22 21 23 22 23 P 19 21 17 22 20 18 23 16
C 4 17
C 1 4
C 7 16
C 9 20
C 6 9
C 2 6
C 14 21
C 14 29
C 15 16
C 7 15
C 0 7
C 17 25
C 18 24
C 3 18
C 3 15
C 3 7
C 1 3
C 10 24
C 10 16
C 9 16
C 18 28
C 10 18
C 6 18
C 10 15
C 2 15
C 2 7
C 2 3
C 19 27
C 14 19
C 5 14
C 4 5
C 4 10
C 3 4
C 4 7
C 8 19
C 8 17
C 5 8
C 20 24
C 20 30
C 21 35
C 11 21
C 11 12
C 12 25
C 12 19
C 12 14
C 22 33
C 13 22
C 22 30
C 23 31
C 23 38
C 23 29
C 21 29
C 24 34
C 26 28
C 13 26
C 9 13
C 6 9
C 6 10
C 9 15
C 5 9
C 5 6
C 6 7
C 5 6
C 8 15
C 8 9
C 16 28
C 16 18
C 20 26
C 13 20
C 13 16
C 18 20
C 22 28
C 24 26
C 22 24
C 26 28
C 27 32
C 23 27
C 11 23
C 11 17
C 11 12
C 11 13
C 10 11
C 8 10
C 7 8
C 9 11
C 9 10
C 12 18
C 13 15
C 14 17
C 14 16
C 12 14
C 12 13
C 11 12
C 14 15
C 13 14
C 17 20
C 16 17
C 25 27
C 19 25
C 31 38
C 31 35
C 29 31
C 32 36
C 21 32
C 21 23
C 19 21
C 19 22
C 18 19
C 16 18
C 15 16
C 17 19
C 17 18
C 21 26
C 20 21
C 23 25
C 23 24
C 22 23
C 20 22
C 19 20
C 21 23
C 21 22
C 24 26
C 25 28
C 27 32
C 29 36
C 27 29
C 33 37
C 33 34
C 30 33
C 27 30
C 25 27
C 24 25
C 23 24
C 26 27
C 25 26
C 29 33
C 29 30
C 31 34
C 31 32
C 28 31
C 28 29
C 27 28
C 30 31
C 29 30
C 32 33
C 35 38
C 35 36
C 37 38
C 36 37
C 34 36
C 34 35
C 32 34
C 31 32
C 33 34
