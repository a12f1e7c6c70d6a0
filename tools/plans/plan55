0
C 1 12
C 2 13
C 3 14
C 4 8
R 3 W 3 14 E 3 14 P 3 14
R 3 W 4 8 E 4 8 P 4 8
C 5 6
R 3 W 5 6 E 5 6 P 5 6
C 7 11
R 3 W 1 12 E 1 12 P 1 12
R 3 W 7 11 E 7 11 P 7 11
C 9 10
R 3 W 2 13 E 2 13 P 2 13
R 3 W 9 10 E 9 10 P 9 10
C 15 18
C 16 37
C 17 36
C 19 38
C 20 32
R 3 W 19 38 E 19 38 P 19 38
R 3 W 20 32 E 20 32 P 20 32
C 21 22
R 3 W 16 37 E 16 37 P 16 37
R 3 W 21 22 E 21 22 P 21 22
C 23 35
R 3 W 17 36 E 17 36 P 17 36
R 3 W 23 35 E 23 35 P 23 35
C 24 26
C 25 27
C 28 30
R 3 W 24 26 E 24 26 P 24 26
R 3 W 28 30 E 28 30 P 28 30
C 29 31
R 3 W 25 27 E 25 27 P 25 27
R 3 W 29 31 E 29 31 P 29 31
C 33 34
R 3 W 15 18 E 15 18 P 15 18
R 3 W 33 34 E 33 34 P 33 34
C 39 42
C 40 53
C 41 52
C 43 54
C 44 48
R 3 W 43 54 E 43 54 P 43 54
R 3 W 44 48 E 44 48 P 44 48
C 45 46
R 3 W 40 53 E 40 53 P 40 53
R 3 W 45 46 E 45 46 P 45 46
C 47 51
R 3 W 41 52 E 41 52 P 41 52
R 3 W 47 51 E 47 51 P 47 51
C 49 50
R 3 W 39 42 E 39 42 P 39 42
R 3 W 49 50 E 49 50 P 49 50
C 0 5
C 1 7
C 11 12
R 5 W 0 5 6 E 0 5 0 6 P 0 5 6
R 6 W 1 12 7 11 E 1 7 1 11 7 12 11 12 P 7 12 1 11
C 2 9
C 10 13
R 6 W 2 13 9 10 E 2 9 2 10 9 13 10 13 P 9 13 2 10
C 3 4
C 8 14
R 6 W 3 14 4 8 E 3 4 3 8 4 14 8 14 P 4 14 3 8
C 15 33
C 18 34
C 16 21
C 22 37
C 17 23
C 35 36
R 6 W 16 37 21 22 E 16 21 16 22 21 37 22 37 P 21 37 16 22
R 6 W 17 36 23 35 E 17 23 17 35 23 36 35 36 P 23 36 17 35
R 6 W 15 18 33 34 E 15 18 15 33 18 34 33 34 P 18 33 15 34
C 19 20
C 32 38
R 6 W 19 38 20 32 E 19 20 19 32 20 38 32 38 P 20 38 19 32
C 24 28
C 26 30
C 25 29
C 27 31
R 6 W 24 26 28 30 E 24 26 24 28 26 30 28 30 P 26 28 24 30
R 6 W 25 27 29 31 E 25 27 25 29 27 31 29 31 P 27 29 25 31
C 39 49
C 42 50
C 40 45
C 46 53
C 41 47
C 51 52
R 6 W 40 53 45 46 E 40 45 40 46 45 53 46 53 P 45 53 40 46
R 6 W 41 52 47 51 E 41 47 41 51 47 52 51 52 P 47 52 41 51
R 6 W 39 42 49 50 E 39 42 39 49 42 50 49 50 P 42 49 39 50
C 43 44
C 48 54
R 6 W 43 54 44 48 E 43 44 43 48 44 54 48 54 P 44 54 43 48
C 0 1
C 2 3
C 13 14
C 15 19
C 34 38
C 16 17
C 36 37
C 24 25
C 26 27
C 28 29
C 26 28
C 25 28
C 25 26
C 27 29
C 30 31
C 27 30
C 27 28
C 29 30
C 39 43
C 50 54
C 40 41
C 52 53
C 0 2
C 1 3
C 1 2
C 4 5
C 6 8
C 7 9
C 6 7
C 8 9
C 10 11
C 4 10
C 4 6
C 1 4
C 2 6
C 2 4
C 5 11
C 5 7
C 8 10
C 5 8
C 7 10
C 9 11
C 12 13
C 3 12
C 3 6
C 3 5
C 3 4
C 6 8
C 5 6
C 13 14
C 9 13
C 9 12
C 7 9
C 7 8
C 6 7
C 10 12
C 9 10
C 8 9
C 11 14
C 11 13
C 11 12
R 16 W 0 5 6 1 12 7 11 2 13 9 10 3 14 4 8 E 0 1 1 2 2 3 3 4 4 5 5 6 6 7 7 8 8 9 9 10 10 11 11 12 12 13 13 14 P 7 11 3 13 9 5 1 14 12 10 8 6 4 2 0
R 9 W 24 26 28 30 25 27 29 31 E 24 25 25 26 26 27 27 28 28 29 29 30 30 31 P 28 30 26 31 29 27 24 25
C 0 24
C 2 26
C 3 27
C 14 30
C 15 16
C 17 19
C 16 17
C 18 35
C 20 21
C 18 20
C 21 35
C 22 32
C 23 33
C 22 23
C 18 22
C 16 18
C 17 22
C 17 18
C 21 23
C 32 33
C 20 32
C 20 21
C 23 32
C 33 35
C 34 36
C 19 34
C 19 22
C 19 20
C 18 19
C 21 22
C 20 21
C 37 38
C 36 37
C 33 36
C 33 34
C 23 33
C 22 23
C 21 22
C 32 34
C 32 33
C 23 32
C 35 37
C 35 36
R 18 W 15 18 33 34 19 38 20 32 16 37 21 22 17 36 23 35 E 15 16 16 17 17 18 18 19 19 20 20 21 21 22 22 23 23 32 32 33 33 34 33 35 34 36 35 36 36 37 37 38 P 22 34 18 37 33 20 16 38 36 35 32 21 19 17 15 23
C 34 35
R 17 W 15 18 33 34 19 38 20 32 16 37 21 22 17 36 23 35 E 15 16 16 17 17 18 18 19 19 20 20 21 21 22 22 23 23 32 32 33 33 34 34 35 35 36 36 37 37 38 P 22 34 18 37 32 20 16 38 36 33 23 21 19 17 15 35
C 39 40
C 41 43
C 40 41
C 42 51
C 44 45
C 42 44
C 45 51
C 46 48
C 47 49
C 46 47
C 42 46
C 40 42
C 41 46
C 41 42
C 45 47
C 48 49
C 44 48
C 44 45
C 47 48
C 49 51
C 50 52
C 43 50
C 43 46
C 43 44
C 42 43
C 45 46
C 44 45
C 53 54
C 52 53
C 49 52
C 49 50
C 47 49
C 46 47
C 45 46
C 48 50
C 48 49
C 47 48
C 51 53
C 51 52
R 18 W 39 42 49 50 43 54 44 48 40 53 45 46 41 52 47 51 E 39 40 40 41 41 42 42 43 43 44 44 45 45 46 46 47 47 48 48 49 49 50 49 51 50 52 51 52 52 53 53 54 P 46 50 42 53 49 44 40 54 52 51 48 45 43 41 39 47
C 50 51
R 17 W 39 42 49 50 43 54 44 48 40 53 45 46 41 52 47 51 E 39 40 40 41 41 42 42 43 43 44 44 45 45 46 46 47 47 48 48 49 49 50 50 51 51 52 52 53 53 54 P 46 50 42 53 48 44 40 54 52 49 47 45 43 41 39 51
C 15 39
C 17 41
C 18 42
C 22 46
C 32 48
C 37 53
C 0 15
C 1 16
C 2 17
C 3 18
C 4 43
C 4 19
C 5 44
C 5 20
C 6 21
C 8 23
C 10 49
C 11 50
C 12 35
C 13 36
C 14 37
C 14 45
C 6 14
C 19 43
C 20 44
C 21 45
C 24 39
C 15 24
C 2 15
C 25 40
C 1 25
C 16 40
C 9 40
C 9 32
C 16 25
C 9 16
C 3 9
C 26 41
C 17 26
C 6 17
C 27 42
C 18 27
C 28 51
C 12 28
C 12 24
C 4 12
C 1 4
C 1 2
C 19 24
C 12 19
C 29 52
C 13 29
C 13 25
C 5 13
C 5 9
C 20 25
C 16 20
C 13 20
C 13 16
C 30 53
C 30 37
C 30 41
C 31 54
C 31 38
C 7 31
C 7 22
C 7 18
C 7 13
C 31 46
C 22 31
C 33 49
C 10 33
C 10 26
C 10 17
C 21 26
C 30 33
C 14 30
C 14 21
C 26 30
C 21 26
C 34 50
C 11 34
C 11 27
C 11 18
C 11 16
C 35 51
C 28 35
C 28 43
C 24 28
C 36 52
C 29 36
C 29 44
C 29 32
C 37 45
C 33 37
C 38 54
C 38 42
C 34 38
C 27 34
C 22 27
C 20 22
C 31 34
C 27 31
C 39 47
C 8 39
C 8 15
C 4 8
C 3 4
C 4 8
C 5 8
C 15 19
C 12 15
C 6 12
C 6 8
C 5 6
C 9 12
C 10 15
C 7 10
C 7 9
C 7 8
C 10 12
C 9 10
C 13 15
C 17 19
C 23 47
C 23 39
C 23 24
C 14 23
C 14 17
C 11 14
C 11 13
C 11 12
C 14 15
C 13 14
C 16 17
C 19 23
C 28 39
C 24 28
C 21 24
C 26 28
C 35 47
C 35 43
C 30 35
C 40 48
C 25 40
C 25 29
C 18 25
C 18 20
C 18 19
C 16 18
C 15 16
C 17 19
C 17 18
C 20 21
C 22 25
C 22 23
C 20 22
C 19 20
C 21 23
C 21 22
C 24 25
C 32 40
C 29 32
C 27 29
C 26 27
C 24 26
C 23 24
C 25 27
C 25 26
C 28 29
C 31 32
C 34 40
C 36 48
C 36 44
C 41 49
C 33 41
C 33 39
C 30 33
C 30 31
C 28 30
C 27 28
C 29 31
C 29 30
C 35 39
C 32 35
C 37 41
C 37 43
C 41 47
C 42 50
C 38 42
C 45 51
C 45 49
C 50 53
C 52 54
C 46 52
C 38 46
C 36 38
C 34 36
C 33 34
C 32 33
C 31 32
C 34 35
C 33 34
C 36 39
C 38 40
C 37 38
C 36 37
C 35 36
C 38 39
C 37 38
C 40 43
C 42 46
C 42 44
C 41 42
C 40 41
C 39 40
C 42 43
C 41 42
C 44 47
C 46 48
C 45 46
C 44 45
C 43 44
C 46 47
C 45 46
C 50 52
C 51 52
C 50 51
C 49 50
C 48 49
C 47 48
C 49 50
C 53 54
