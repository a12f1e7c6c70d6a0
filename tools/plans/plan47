0
C 1 12
C 2 13
C 3 14
C 4 8
R 3 W 3 14 E 3 14 P 3 14
R 3 W 4 8 E 4 8 P 4 8
C 5 6
R 3 W 5 6 E 5 6 P 5 6
C 7 11
R 3 W 1 12 E 1 12 P 1 12
R 3 W 7 11 E 7 11 P 7 11
C 9 10
R 3 W 2 13 E 2 13 P 2 13
R 3 W 9 10 E 9 10 P 9 10
C 15 18
C 16 29
C 17 28
C 19 30
C 20 24
R 3 W 19 30 E 19 30 P 19 30
R 3 W 20 24 E 20 24 P 20 24
C 21 22
R 3 W 16 29 E 16 29 P 16 29
R 3 W 21 22 E 21 22 P 21 22
C 23 27
R 3 W 17 28 E 17 28 P 17 28
R 3 W 23 27 E 23 27 P 23 27
C 25 26
R 3 W 15 18 E 15 18 P 15 18
R 3 W 25 26 E 25 26 P 25 26
C 31 34
C 32 45
C 33 44
C 35 46
C 36 40
R 3 W 35 46 E 35 46 P 35 46
R 3 W 36 40 E 36 40 P 36 40
C 37 38
R 3 W 32 45 E 32 45 P 32 45
R 3 W 37 38 E 37 38 P 37 38
C 39 43
R 3 W 33 44 E 33 44 P 33 44
R 3 W 39 43 E 39 43 P 39 43
C 41 42
R 3 W 31 34 E 31 34 P 31 34
R 3 W 41 42 E 41 42 P 41 42
C 0 5
C 1 7
C 11 12
R 5 W 0 5 6 E 0 5 0 6 P 0 5 6
R 6 W 1 12 7 11 E 1 7 1 11 7 12 11 12 P 7 12 1 11
C 2 9
C 10 13
R 6 W 2 13 9 10 E 2 9 2 10 9 13 10 13 P 9 13 2 10
C 3 4
C 8 14
R 6 W 3 14 4 8 E 3 4 3 8 4 14 8 14 P 4 14 3 8
C 15 25
C 18 26
C 16 21
C 22 29
C 17 23
C 27 28
R 6 W 16 29 21 22 E 16 21 16 22 21 29 22 29 P 21 29 16 22
R 6 W 17 28 23 27 E 17 23 17 27 23 28 27 28 P 23 28 17 27
R 6 W 15 18 25 26 E 15 18 15 25 18 26 25 26 P 18 25 15 26
C 19 20
C 24 30
R 6 W 19 30 20 24 E 19 20 19 24 20 30 24 30 P 20 30 19 24
C 31 41
C 34 42
C 32 37
C 38 45
C 33 39
C 43 44
R 6 W 32 45 37 38 E 32 37 32 38 37 45 38 45 P 37 45 32 38
R 6 W 33 44 39 43 E 33 39 33 43 39 44 43 44 P 39 44 33 43
R 6 W 31 34 41 42 E 31 34 31 41 34 42 41 42 P 34 41 31 42
C 35 36
C 40 46
R 6 W 35 46 36 40 E 35 36 35 40 36 46 40 46 P 36 46 35 40
C 0 1
C 2 3
C 13 14
C 15 19
C 26 30
C 16 17
C 28 29
C 31 35
C 42 46
C 32 33
C 44 45
C 0 2
C 1 3
C 1 2
C 4 5
C 6 8
C 7 9
C 6 7
C 8 9
C 10 11
C 4 10
C 4 6
C 1 4
C 2 6
C 5 11
C 5 7
C 8 10
C 5 8
C 7 10
C 9 11
C 12 13
C 3 12
C 13 14
C 9 13
C 11 14
C 15 16
C 17 19
C 16 17
C 18 27
C 20 21
C 18 20
C 21 27
C 22 24
C 23 25
C 22 23
C 18 22
C 16 18
C 17 22
C 21 23
C 24 25
C 20 24
C 20 21
C 23 24
C 25 27
C 26 28
C 19 26
C 29 30
C 28 29
C 25 28
C 27 29
R 45 W 15 18 25 26 19 30 20 24 16 29 21 22 17 28 23 27 E 15 16 16 18 16 17 18 20 18 22 17 19 17 21 17 22 19 25 19 26 20 21 20 23 22 26 22 23 21 25 21 24 26 28 23 24 23 28 25 28 25 27 24 27 28 29 27 29 29 30 P 21 28 18 29 24 22 16 30 25 26 19 15 27 20 17 23
R 44 W 0 5 6 1 12 7 11 2 13 9 10 3 14 4 8 E 0 1 1 2 1 4 2 6 2 3 2 8 4 5 4 6 5 7 5 8 3 12 3 9 6 12 6 7 8 9 8 10 12 13 7 13 7 10 9 11 9 13 10 11 11 14 13 14 P 8 12 6 11 7 5 2 13 9 1 14 3 10 4 0
C 31 32
C 33 35
C 32 33
C 34 43
C 36 37
C 34 36
C 37 43
C 38 40
C 39 41
C 38 39
C 34 38
C 32 34
C 33 38
C 37 39
C 40 41
C 36 40
C 36 37
C 39 40
C 41 43
C 42 44
C 35 42
C 45 46
C 44 45
C 41 44
C 43 45
R 45 W 31 34 41 42 35 46 36 40 32 45 37 38 33 44 39 43 E 31 32 32 34 32 33 34 36 34 38 33 35 33 37 33 38 35 41 35 42 36 37 36 39 38 42 38 39 37 41 37 40 42 44 39 40 39 44 41 44 41 43 40 43 44 45 43 45 45 46 P 37 44 34 45 40 38 32 46 41 42 35 31 43 36 33 39
C 1 32
C 2 33
C 5 36
C 10 40
C 13 44
C 14 45
C 1 16
C 3 19
C 3 35
C 5 20
C 8 21
C 8 37
C 9 25
C 11 27
C 13 28
C 15 31
C 0 15
C 15 31
C 5 31
C 16 32
C 17 33
C 2 17
C 2 5
C 18 34
C 4 18
C 4 15
C 1 4
C 2 4
C 3 15
C 18 34
C 19 35
C 8 19
C 20 36
C 15 20
C 21 37
C 13 37
C 13 34
C 19 21
C 22 38
C 6 22
C 6 16
C 3 6
C 3 4
C 5 6
C 4 5
C 22 38
C 23 39
C 7 39
C 7 23
C 7 33
C 7 18
C 7 15
C 6 7
C 24 40
C 10 24
C 25 41
C 9 25
C 9 32
C 9 16
C 15 16
C 16 18
C 26 42
C 12 42
C 12 26
C 12 31
C 12 17
C 9 12
C 7 12
C 22 31
C 10 31
C 13 22
C 8 13
C 8 15
C 8 9
C 6 8
C 5 6
C 12 15
C 19 22
C 13 19
C 26 39
C 23 26
C 23 32
C 27 43
C 11 27
C 11 33
C 11 20
C 27 37
C 28 44
C 29 45
C 14 29
C 14 38
C 14 21
C 14 23
C 11 14
C 11 16
C 14 18
C 20 23
C 21 32
C 29 41
C 29 38
C 30 46
C 30 40
C 30 35
C 25 30
C 25 36
C 10 25
C 10 17
C 10 13
C 10 11
C 9 10
C 7 9
C 7 8
C 10 12
C 9 10
C 13 16
C 11 13
C 17 19
C 14 17
C 14 15
C 11 14
C 11 12
C 13 15
C 13 14
C 16 17
C 18 19
C 22 25
C 28 35
C 30 33
C 26 30
C 31 36
C 26 31
C 22 26
C 25 31
C 28 36
C 33 39
C 30 33
C 28 30
C 33 36
C 35 38
C 40 44
C 43 46
C 42 43
C 24 42
C 24 34
C 21 24
C 20 21
C 20 22
C 18 20
C 16 18
C 15 16
C 17 20
C 17 18
C 19 22
C 21 26
C 23 24
C 23 25
C 21 23
C 19 21
C 19 20
C 22 23
C 21 22
C 24 31
C 25 26
C 32 34
C 37 42
C 29 37
C 27 29
C 27 32
C 27 28
C 24 27
C 24 25
C 23 24
C 26 27
C 25 26
C 28 31
C 29 34
C 29 33
C 30 32
C 29 30
C 28 29
C 27 28
C 30 31
C 29 30
C 34 36
C 33 34
C 37 39
C 38 39
C 36 38
C 41 43
C 40 41
C 40 42
C 35 40
C 35 37
C 32 35
C 32 33
C 31 32
C 34 35
C 33 34
C 36 37
C 35 36
C 38 40
C 37 38
C 39 42
C 39 40
C 45 46
C 44 45
C 43 44
C 41 43
C 41 42
