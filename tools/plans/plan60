0
C 52 57
C 1 2
C 22 27
C 49 59
R 3 W 49 59 E 49 59 P 49 59
C 35 38
C 20 23
C 4 14
R 3 W 4 14 E 4 14 P 4 14
C 21 28
C 19 29
R 3 W 19 29 E 19 29 P 19 29
C 50 53
C 6 13
C 48 55
R 3 W 48 55 E 48 55 P 48 55
R 3 W 52 57 E 52 57 P 52 57
C 37 42
C 39 41
C 7 12
C 24 26
R 3 W 21 28 E 21 28 P 21 28
R 3 W 24 26 E 24 26 P 24 26
C 46 47
R 3 W 46 47 E 46 47 P 46 47
R 3 W 50 53 E 50 53 P 50 53
C 36 43
R 3 W 36 43 E 36 43 P 36 43
R 3 W 39 41 E 39 41 P 39 41
C 31 32
R 3 W 31 32 E 31 32 P 31 32
R 3 W 35 38 E 35 38 P 35 38
C 9 11
R 3 W 6 13 E 6 13 P 6 13
R 3 W 9 11 E 9 11 P 9 11
C 0 14
C 5 8
R 3 W 1 2 E 1 2 P 1 2
R 3 W 5 8 E 5 8 P 5 8
C 3 10
R 3 W 3 10 E 3 10 P 3 10
R 3 W 7 12 E 7 12 P 7 12
C 16 17
R 3 W 16 17 E 16 17 P 16 17
R 3 W 20 23 E 20 23 P 20 23
C 33 40
R 3 W 33 40 E 33 40 P 33 40
R 3 W 37 42 E 37 42 P 37 42
C 54 56
C 18 25
R 3 W 18 25 E 18 25 P 18 25
R 3 W 22 27 E 22 27 P 22 27
C 45 59
C 15 29
C 1 5
C 2 8
C 51 58
R 3 W 51 58 E 51 58 P 51 58
R 3 W 54 56 E 54 56 P 54 56
C 16 20
C 17 23
C 34 44
R 3 W 34 44 E 34 44 P 34 44
C 32 38
C 31 35
C 30 44
C 51 54
C 56 58
C 3 7
C 10 12
R 5 W 0 4 14 E 0 14 4 14 P 14 0 4
R 6 W 3 10 7 12 E 3 10 3 7 10 12 7 12 P 10 7 3 12
C 55 57
C 48 52
R 5 W 45 49 59 E 45 59 49 59 P 59 45 49
R 6 W 48 55 52 57 E 48 55 48 52 55 57 52 57 P 55 52 48 57
C 47 53
C 46 50
R 6 W 46 47 50 53 E 46 47 46 50 47 53 50 53 P 47 50 46 53
R 6 W 51 58 54 56 E 51 54 51 56 54 58 56 58 P 54 58 51 56
C 21 24
C 26 28
R 6 W 16 17 20 23 E 16 17 16 20 17 23 20 23 P 17 20 16 23
R 6 W 21 28 24 26 E 21 24 21 26 24 28 26 28 P 24 28 21 26
C 36 39
C 41 43
R 6 W 31 32 35 38 E 31 32 31 35 32 38 35 38 P 32 35 31 38
R 6 W 36 43 39 41 E 36 39 36 41 39 43 41 43 P 39 43 36 41
C 33 37
C 40 42
R 5 W 30 34 44 E 30 44 34 44 P 44 30 34
R 6 W 33 40 37 42 E 33 40 33 37 40 42 37 42 P 40 37 33 42
C 25 27
C 18 22
R 5 W 15 19 29 E 15 29 19 29 P 29 15 19
R 6 W 18 25 22 27 E 18 25 18 22 25 27 22 27 P 25 22 18 27
C 6 9
C 11 13
R 6 W 1 2 5 8 E 1 2 1 5 2 8 5 8 P 2 5 1 8
R 6 W 6 13 9 11 E 6 9 6 11 9 13 11 13 P 9 13 6 11
C 27 29
C 15 22
C 19 25
C 45 52
C 49 55
C 57 59
C 31 36
C 32 39
C 35 41
C 38 43
R 20 W 31 32 35 38 36 43 39 41 E 31 32 31 35 31 36 32 38 32 39 35 38 35 41 36 39 36 41 38 43 39 43 41 43 P 32 41 35 43 31 38 36 39
C 42 44
C 30 37
C 34 40
R 19 W 33 40 37 42 30 34 44 E 33 40 33 37 30 37 30 42 34 40 34 42 40 44 37 44 42 44 P 40 37 42 44 30 34 33
C 8 13
C 1 6
C 2 9
C 5 11
R 20 W 1 2 5 8 6 13 9 11 E 1 2 1 5 1 6 2 8 2 9 5 8 5 11 6 9 6 11 8 13 9 13 11 13 P 2 11 5 13 1 8 6 9
C 12 14
C 0 7
C 4 10
R 19 W 3 10 7 12 0 4 14 E 3 10 3 7 0 7 0 12 4 10 4 12 10 14 7 14 12 14 P 10 7 12 14 0 4 3
C 23 28
C 16 21
C 17 24
C 20 26
R 19 W 18 25 22 27 15 19 29 E 18 25 18 22 15 22 15 27 19 25 19 27 25 29 22 29 27 29 P 25 22 27 29 15 19 18
R 20 W 16 17 20 23 21 28 24 26 E 16 17 16 20 16 21 17 23 17 24 20 23 20 26 21 24 21 26 23 28 24 28 26 28 P 17 26 20 28 16 23 21 24
C 47 54
C 46 51
C 50 56
C 53 58
R 19 W 45 49 59 48 55 52 57 E 45 52 45 57 49 55 49 57 48 55 48 52 55 59 52 59 57 59 P 55 52 45 59 49 57 48
R 20 W 46 47 50 53 51 58 54 56 E 46 47 46 50 46 51 47 53 47 54 50 53 50 56 51 54 51 56 53 58 54 58 56 58 P 47 56 50 58 46 53 51 54
C 33 35
C 30 36
C 30 33
C 32 34
C 31 32
C 30 31
C 32 33
C 31 32
C 37 41
C 34 37
C 38 40
C 36 38
C 34 36
C 39 42
C 35 39
C 33 35
C 33 34
C 32 33
C 35 36
C 34 35
C 37 39
C 40 41
C 43 44
C 42 43
C 40 42
C 38 40
C 37 38
C 36 37
C 35 36
C 39 40
C 38 39
C 37 38
C 41 43
C 41 42
C 40 41
C 0 6
C 2 4
C 1 2
C 3 5
C 0 3
C 0 1
C 2 3
C 1 2
C 7 11
C 4 7
C 8 10
C 6 8
C 4 6
C 9 12
C 5 9
C 3 5
C 3 4
C 2 3
C 5 6
C 4 5
C 7 9
C 10 11
C 13 14
C 12 13
C 10 12
C 8 10
C 7 8
C 6 7
C 5 6
C 9 10
C 8 9
C 7 8
C 11 13
C 11 12
C 10 11
R 16 W 3 10 7 12 0 4 14 1 2 5 8 6 13 9 11 E 0 1 1 2 2 3 3 4 4 5 5 6 6 7 7 8 8 9 9 10 10 11 11 12 12 13 13 14 P 7 11 3 13 9 5 1 14 12 10 8 6 4 2 0
R 16 W 33 40 37 42 30 34 44 31 32 35 38 36 43 39 41 E 30 31 31 32 32 33 33 34 34 35 35 36 36 37 37 38 38 39 39 40 40 41 41 42 42 43 43 44 P 37 41 33 43 39 35 31 44 42 40 38 36 34 32 30
C 8 38
C 0 30
C 1 31
C 2 32
C 7 37
C 9 39
C 10 40
C 53 55
C 45 51
C 47 49
C 46 47
C 48 50
C 45 48
C 45 46
C 47 48
C 46 47
C 51 53
C 52 56
C 49 52
C 49 51
C 54 57
C 50 54
C 48 50
C 48 49
C 47 48
C 50 51
C 49 50
C 52 54
C 55 56
C 58 59
C 57 58
C 55 57
C 53 55
C 52 53
C 51 52
C 50 51
C 54 55
C 53 54
C 52 53
C 56 58
C 56 57
C 55 56
R 16 W 46 47 50 53 51 58 54 56 45 49 59 48 55 52 57 E 45 46 46 47 47 48 48 49 49 50 50 51 51 52 52 53 53 54 54 55 55 56 56 57 57 58 58 59 P 52 56 48 58 54 50 46 59 57 55 53 51 49 47 45
C 22 26
C 15 21
C 17 19
C 16 17
C 18 20
C 15 18
C 15 16
C 17 18
C 16 17
C 19 22
C 23 25
C 21 23
C 19 21
C 24 27
C 20 24
C 18 20
C 18 19
C 17 18
C 20 21
C 19 20
C 22 24
C 25 26
C 28 29
C 27 28
C 25 27
C 23 25
C 22 23
C 21 22
C 20 21
C 24 25
C 23 24
C 22 23
C 26 28
C 26 27
C 25 26
R 16 W 18 25 22 27 15 19 29 16 17 20 23 21 28 24 26 E 15 16 16 17 17 18 18 19 19 20 20 21 21 22 22 23 23 24 24 25 25 26 26 27 27 28 28 29 P 22 26 18 28 24 20 16 29 27 25 23 21 19 17 15
C 22 52
C 15 45
C 16 46
C 17 47
C 23 53
C 24 54
C 25 55
C 41 56
C 0 15
C 1 16
C 2 17
C 3 18
C 4 49
C 5 50
C 6 51
C 7 22
C 8 23
C 9 24
C 10 25
C 11 26
C 11 41
C 12 57
C 13 58
C 14 59
C 19 34
C 4 19
C 20 35
C 5 20
C 21 36
C 6 21
C 26 56
C 26 41
C 27 42
C 12 27
C 12 19
C 28 43
C 13 28
C 13 20
C 29 44
C 14 29
C 14 21
C 30 45
C 15 30
C 4 15
C 1 4
C 8 30
C 8 15
C 2 8
C 2 4
C 31 46
C 16 31
C 5 16
C 9 31
C 9 16
C 32 47
C 17 32
C 6 17
C 10 32
C 10 17
C 33 48
C 3 33
C 3 5
C 5 9
C 18 48
C 11 48
C 18 33
C 7 18
C 11 33
C 11 18
C 26 48
C 34 49
C 19 34
C 19 30
C 35 50
C 20 35
C 20 31
C 36 51
C 21 36
C 21 32
C 37 52
C 22 37
C 22 33
C 18 22
C 26 37
C 26 33
C 38 53
C 23 38
C 23 45
C 12 23
C 12 19
C 12 15
C 6 12
C 6 8
C 3 6
C 3 4
C 5 8
C 5 6
C 10 15
C 10 12
C 23 30
C 19 23
C 34 38
C 39 54
C 24 39
C 24 46
C 13 24
C 13 20
C 13 16
C 7 13
C 7 9
C 7 10
C 7 8
C 9 12
C 9 10
C 11 16
C 11 15
C 24 31
C 20 24
C 18 20
C 16 18
C 22 24
C 20 22
C 35 39
C 40 55
C 25 40
C 25 47
C 14 25
C 14 21
C 14 17
C 14 19
C 13 14
C 11 13
C 11 12
C 14 15
C 13 14
C 17 23
C 17 19
C 16 17
C 15 16
C 18 19
C 17 18
C 25 32
C 21 25
C 36 40
C 41 52
C 41 48
C 37 41
C 42 57
C 27 42
C 27 49
C 27 45
C 27 34
C 27 30
C 21 27
C 21 23
C 20 21
C 19 20
C 22 23
C 21 22
C 24 27
C 25 30
C 38 45
C 34 38
C 42 53
C 42 49
C 42 45
C 43 58
C 28 43
C 28 50
C 28 46
C 28 35
C 28 31
C 26 28
C 25 26
C 24 25
C 23 24
C 26 27
C 25 26
C 28 30
C 31 33
C 39 46
C 35 39
C 35 37
C 33 35
C 39 41
C 43 54
C 43 50
C 43 46
C 43 48
C 41 43
C 44 59
C 29 44
C 29 51
C 29 47
C 29 36
C 29 32
C 29 34
C 29 31
C 28 29
C 27 28
C 30 31
C 29 30
C 32 38
C 32 34
C 32 33
C 31 32
C 34 35
C 33 34
C 38 39
C 40 47
C 36 40
C 36 42
C 36 37
C 36 38
C 35 36
C 37 39
C 37 38
C 40 45
C 40 42
C 40 41
C 39 40
C 42 43
C 41 42
C 44 55
C 44 51
C 44 47
C 44 49
C 44 48
C 46 52
C 45 46
C 44 45
C 43 44
C 46 48
C 45 46
C 47 53
C 47 49
C 51 57
C 51 53
C 54 56
C 50 54
C 50 52
C 47 50
C 47 48
C 49 52
C 49 50
C 51 54
C 51 52
C 53 56
C 53 54
C 55 58
C 55 57
C 55 56
