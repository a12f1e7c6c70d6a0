0
C 0 1
C 2 3
R 3 W 0 1 E 0 1 P 0 1
R 3 W 2 3 E 2 3 P 2 3
C 4 5
C 6 7
R 3 W 4 5 E 4 5 P 4 5
R 3 W 6 7 E 6 7 P 6 7
C 8 9
C 10 11
R 3 W 8 9 E 8 9 P 8 9
R 3 W 10 11 E 10 11 P 10 11
C 12 13
C 14 15
R 3 W 12 13 E 12 13 P 12 13
R 3 W 14 15 E 14 15 P 14 15
C 16 17
C 18 19
C 20 21
C 22 23
R 3 W 18 19 E 18 19 P 18 19
R 3 W 22 23 E 22 23 P 22 23
C 24 25
R 3 W 16 17 E 16 17 P 16 17
R 3 W 24 25 E 24 25 P 24 25
C 26 27
C 28 29
R 3 W 26 27 E 26 27 P 26 27
R 3 W 28 29 E 28 29 P 28 29
C 30 31
C 32 33
R 3 W 30 31 E 30 31 P 30 31
R 3 W 32 33 E 32 33 P 32 33
C 34 35
C 36 37
R 3 W 34 35 E 34 35 P 34 35
R 3 W 36 37 E 36 37 P 36 37
C 38 39
C 40 41
R 3 W 38 39 E 38 39 P 38 39
R 3 W 40 41 E 40 41 P 40 41
C 0 2
C 1 3
C 4 6
C 5 7
R 6 W 0 1 2 3 E 0 1 0 2 1 3 2 3 P 1 2 0 3
R 6 W 4 5 6 7 E 4 5 4 6 5 7 6 7 P 5 6 4 7
C 8 10
C 9 11
C 12 14
C 13 15
R 6 W 8 9 10 11 E 8 9 8 10 9 11 10 11 P 9 10 8 11
R 6 W 12 13 14 15 E 12 13 12 14 13 15 14 15 P 13 14 12 15
C 16 24
C 17 25
R 6 W 16 17 24 25 E 16 17 16 24 17 25 24 25 P 17 24 16 25
R 3 W 20 21 E 20 21 P 20 21
C 18 22
C 19 23
C 19 22
R 5 W 18 19 22 23 E 18 19 19 22 22 23 P 19 22 18 23
C 26 28
C 27 29
C 30 32
C 31 33
R 6 W 26 27 28 29 E 26 27 26 28 27 29 28 29 P 27 28 26 29
R 6 W 30 31 32 33 E 30 31 30 32 31 33 32 33 P 31 32 30 33
C 34 36
C 35 37
C 38 40
C 39 41
R 6 W 34 35 36 37 E 34 35 34 36 35 37 36 37 P 35 36 34 37
R 6 W 38 39 40 41 E 38 39 38 40 39 41 40 41 P 39 40 38 41
C 17 20
C 21 24
C 0 4
C 1 5
C 2 6
C 3 7
C 8 12
C 9 13
C 10 14
C 11 15
R 20 W 0 1 2 3 4 5 6 7 E 0 1 0 2 0 4 1 3 1 5 2 3 2 6 4 5 4 6 3 7 5 7 6 7 P 1 6 2 7 0 3 4 5
R 20 W 8 9 10 11 12 13 14 15 E 8 9 8 10 8 12 9 11 9 13 10 11 10 14 12 13 12 14 11 15 13 15 14 15 P 9 14 10 15 8 11 12 13
C 26 30
C 27 31
C 28 32
C 29 33
C 34 38
C 35 39
C 36 40
C 37 41
R 20 W 26 27 28 29 30 31 32 33 E 26 27 26 28 26 30 27 29 27 31 28 29 28 32 30 31 30 32 29 33 31 33 32 33 P 27 32 28 33 26 29 30 31
R 20 W 34 35 36 37 38 39 40 41 E 34 35 34 36 34 38 35 37 35 39 36 37 36 40 38 39 38 40 37 41 39 41 40 41 P 35 40 36 41 34 37 38 39
C 16 18
C 17 18
C 16 17
C 19 21
C 17 19
C 20 22
C 18 20
C 18 19
C 23 25
C 23 24
C 21 23
C 20 21
C 24 25
C 22 24
C 22 23
R 13 W 16 17 24 25 20 21 18 19 22 23 E 16 17 17 18 18 20 18 19 20 21 20 22 19 21 19 22 21 23 22 23 23 24 24 25 P 20 23 17 24 19 18 16 25 21 22
C 0 8
C 1 9
C 2 10
C 3 11
C 4 12
C 5 13
C 6 14
C 7 15
C 26 34
C 27 35
C 28 36
C 29 37
C 30 38
C 31 39
C 32 40
C 33 41
R 168 W 0 1 2 3 4 5 6 7 8 9 10 11 12 13 14 15 E 0 1 0 2 0 4 0 8 1 3 1 5 1 9 2 3 2 6 2 10 4 5 4 6 4 12 8 9 8 10 8 12 3 7 3 11 5 7 5 13 6 7 6 14 9 11 9 13 10 11 10 14 12 13 12 14 7 15 11 15 13 15 14 15 P 3 12 7 5 1 11 9 6 2 15 10 8 13 14 4 0
R 168 W 26 27 28 29 30 31 32 33 34 35 36 37 38 39 40 41 E 26 27 26 28 26 30 26 34 27 29 27 31 27 35 28 29 28 32 28 36 30 31 30 32 30 38 34 35 34 36 34 38 29 33 29 37 31 33 31 39 32 33 32 40 35 37 35 39 36 37 36 40 38 39 38 40 33 41 37 41 39 41 40 41 P 29 38 33 31 27 37 35 32 28 41 36 34 39 40 30 26
C 0 26
C 1 27
C 2 28
C 1 2
C 3 29
C 4 30
C 5 31
C 6 32
C 7 33
C 8 34
C 4 8
C 9 35
C 6 9
C 10 36
C 5 10
C 5 6
C 9 10
C 11 37
C 7 11
C 12 38
C 3 12
C 13 39
C 14 40
C 13 14
C 7 13
C 15 41
C 27 28
C 29 38
C 30 34
C 28 34
C 31 36
C 32 35
C 31 32
C 33 37
C 35 36
C 39 40
C 0 16
C 4 16
C 2 16
C 8 19
C 10 19
C 11 23
C 11 32
C 11 28
C 14 21
C 14 29
C 15 24
C 15 36
C 15 34
C 17 26
C 1 17
C 1 4
C 5 26
C 7 26
C 8 17
C 18 30
C 6 18
C 2 6
C 2 8
C 4 8
C 2 4
C 9 30
C 13 30
C 20 27
C 3 20
C 3 5
C 12 27
C 12 18
C 11 12
C 14 20
C 9 14
C 5 9
C 15 18
C 21 38
C 21 27
C 19 21
C 19 28
C 21 34
C 22 33
C 22 31
C 20 22
C 7 20
C 7 11
C 13 22
C 13 14
C 23 35
C 23 29
C 23 26
C 24 40
C 24 33
C 25 41
C 25 37
C 25 39
C 16 25
C 16 17
C 6 16
C 6 8
C 3 6
C 3 4
C 5 8
C 10 17
C 10 12
C 9 10
C 7 9
C 6 7
C 5 6
C 11 16
C 8 11
C 7 8
C 6 7
C 9 11
C 10 16
C 12 20
C 17 18
C 15 17
C 13 15
C 14 17
C 18 22
C 24 25
C 24 31
C 23 24
C 19 23
C 12 19
C 12 13
C 10 12
C 9 10
C 8 9
C 11 12
C 10 11
C 14 19
C 14 16
C 20 23
C 15 20
C 13 15
C 13 14
C 12 13
C 15 16
C 14 15
C 17 23
C 19 20
C 24 26
C 27 32
C 27 28
C 24 27
C 26 28
C 29 30
C 29 31
C 21 29
C 18 21
C 18 24
C 17 18
C 17 19
C 16 17
C 18 20
C 18 19
C 21 26
C 22 29
C 22 27
C 21 22
C 23 24
C 21 23
C 20 21
C 22 24
C 22 23
C 28 29
C 26 28
C 30 34
C 35 39
C 25 35
C 25 30
C 33 39
C 36 38
C 32 36
C 31 32
C 25 31
C 25 27
C 25 26
C 24 25
C 27 28
C 26 27
C 29 31
C 32 34
C 37 40
C 33 37
C 33 35
C 33 36
C 30 33
C 30 32
C 29 30
C 28 29
C 31 32
C 30 31
C 35 38
C 34 35
C 33 34
C 32 33
C 35 36
C 34 35
C 37 39
C 37 38
