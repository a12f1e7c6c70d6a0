0
C 1 2
C 3 10
C 4 14
R 3 W 4 14 E 4 14 P 4 14
C 5 8
R 3 W 1 2 E 1 2 P 1 2
R 3 W 5 8 E 5 8 P 5 8
C 6 13
C 7 12
R 3 W 3 10 E 3 10 P 3 10
R 3 W 7 12 E 7 12 P 7 12
C 9 11
R 3 W 6 13 E 6 13 P 6 13
R 3 W 9 11 E 9 11 P 9 11
C 15 28
C 16 27
C 17 30
C 18 29
C 19 23
R 3 W 18 29 E 18 29 P 18 29
R 3 W 19 23 E 19 23 P 19 23
C 20 21
R 3 W 15 28 E 15 28 P 15 28
R 3 W 20 21 E 20 21 P 20 21
C 22 26
R 3 W 16 27 E 16 27 P 16 27
R 3 W 22 26 E 22 26 P 22 26
C 24 25
R 3 W 17 30 E 17 30 P 17 30
R 3 W 24 25 E 24 25 P 24 25
C 31 44
C 32 43
C 33 46
C 34 45
C 35 39
R 3 W 34 45 E 34 45 P 34 45
R 3 W 35 39 E 35 39 P 35 39
C 36 37
R 3 W 31 44 E 31 44 P 31 44
R 3 W 36 37 E 36 37 P 36 37
C 38 42
R 3 W 32 43 E 32 43 P 32 43
R 3 W 38 42 E 38 42 P 38 42
C 40 41
R 3 W 33 46 E 33 46 P 33 46
R 3 W 40 41 E 40 41 P 40 41
C 47 60
C 48 59
C 49 62
C 50 61
C 51 55
R 3 W 50 61 E 50 61 P 50 61
R 3 W 51 55 E 51 55 P 51 55
C 52 53
R 3 W 47 60 E 47 60 P 47 60
R 3 W 52 53 E 52 53 P 52 53
C 54 58
R 3 W 48 59 E 48 59 P 48 59
R 3 W 54 58 E 54 58 P 54 58
C 56 57
R 3 W 49 62 E 49 62 P 49 62
R 3 W 56 57 E 56 57 P 56 57
C 0 14
C 1 5
C 2 8
C 3 7
C 10 12
R 5 W 0 4 14 E 0 14 4 14 P 14 0 4
R 6 W 3 10 7 12 E 3 10 3 7 10 12 7 12 P 10 7 3 12
C 6 9
C 11 13
R 6 W 1 2 5 8 E 1 2 1 5 2 8 5 8 P 2 5 1 8
R 6 W 6 13 9 11 E 6 9 6 11 9 13 11 13 P 9 13 6 11
C 15 20
C 21 28
C 16 22
C 26 27
R 6 W 15 28 20 21 E 15 20 15 21 20 28 21 28 P 20 28 15 21
R 6 W 16 27 22 26 E 16 22 16 26 22 27 26 27 P 22 27 16 26
C 17 24
C 25 30
R 6 W 17 30 24 25 E 17 24 17 25 24 30 25 30 P 24 30 17 25
C 18 19
C 23 29
R 6 W 18 29 19 23 E 18 19 18 23 19 29 23 29 P 19 29 18 23
C 31 36
C 37 44
C 32 38
C 42 43
R 6 W 31 44 36 37 E 31 36 31 37 36 44 37 44 P 36 44 31 37
R 6 W 32 43 38 42 E 32 38 32 42 38 43 42 43 P 38 43 32 42
C 33 40
C 41 46
R 6 W 33 46 40 41 E 33 40 33 41 40 46 41 46 P 40 46 33 41
C 34 35
C 39 45
R 6 W 34 45 35 39 E 34 35 34 39 35 45 39 45 P 35 45 34 39
C 47 52
C 53 60
C 48 54
C 58 59
R 6 W 47 60 52 53 E 47 52 47 53 52 60 53 60 P 52 60 47 53
R 6 W 48 59 54 58 E 48 54 48 58 54 59 58 59 P 54 59 48 58
C 49 56
C 57 62
R 6 W 49 62 56 57 E 49 56 49 57 56 62 57 62 P 56 62 49 57
C 50 51
C 55 61
R 6 W 50 61 51 55 E 50 51 50 55 51 61 55 61 P 51 61 50 55
C 0 7
C 4 10
C 12 14
C 1 6
C 2 9
C 5 11
C 8 13
R 19 W 0 4 14 3 10 7 12 E 0 7 0 12 4 10 4 12 3 10 3 7 10 14 7 14 12 14 P 10 7 0 14 4 12 3
R 20 W 1 2 5 8 6 13 9 11 E 1 2 1 5 1 6 2 8 2 9 5 8 5 11 6 9 6 11 8 13 9 13 11 13 P 2 11 5 13 1 8 6 9
C 15 16
C 27 28
C 17 18
C 29 30
C 31 32
C 43 44
C 33 34
C 45 46
C 47 48
C 59 60
C 49 50
C 61 62
C 0 6
C 2 4
C 1 2
C 3 5
C 0 3
C 0 1
C 2 3
C 1 2
C 7 11
C 4 7
C 8 10
C 6 8
C 4 6
C 9 12
C 5 9
C 3 5
C 3 4
C 2 3
C 5 6
C 4 5
C 7 9
C 10 11
C 13 14
C 12 13
C 10 12
C 8 10
C 7 8
C 6 7
C 5 6
C 9 10
C 8 9
C 7 8
C 11 13
C 11 12
C 10 11
C 15 17
C 16 18
C 16 17
C 19 20
C 21 23
C 22 24
C 21 22
C 23 24
C 25 26
C 19 25
C 19 21
C 16 19
C 17 21
C 17 19
C 20 26
C 20 22
C 23 25
C 20 23
C 22 25
C 24 26
C 27 29
C 18 27
C 18 21
C 18 20
C 18 19
C 21 23
C 20 21
C 28 30
C 28 29
C 24 28
C 24 27
C 22 24
C 22 23
C 21 22
C 25 27
C 24 25
C 23 24
C 26 29
C 26 28
C 26 27
R 16 W 0 4 14 3 10 7 12 1 2 5 8 6 13 9 11 E 0 1 1 2 2 3 3 4 4 5 5 6 6 7 7 8 8 9 9 10 10 11 11 12 12 13 13 14 P 7 11 3 13 9 5 1 14 12 10 8 6 4 2 0
R 17 W 15 28 20 21 16 27 22 26 17 30 24 25 18 29 19 23 E 15 16 16 17 17 18 18 19 19 20 20 21 21 22 22 23 23 24 24 25 25 26 26 27 27 28 28 29 29 30 P 22 27 18 29 24 20 16 30 28 26 23 21 19 17 15 25
C 11 30
C 31 33
C 32 34
C 32 33
C 35 36
C 37 39
C 38 40
C 37 38
C 39 40
C 41 42
C 35 41
C 35 37
C 32 35
C 33 37
C 33 35
C 36 42
C 36 38
C 39 41
C 36 39
C 38 41
C 40 42
C 43 45
C 34 43
C 34 37
C 34 36
C 34 35
C 37 39
C 36 37
C 44 46
C 44 45
C 40 44
C 40 43
C 38 40
C 38 39
C 37 38
C 41 43
C 40 41
C 39 40
C 42 45
C 42 44
C 42 43
R 17 W 31 44 36 37 32 43 38 42 33 46 40 41 34 45 35 39 E 31 32 32 33 33 34 34 35 35 36 36 37 37 38 38 39 39 40 40 41 41 42 42 43 43 44 44 45 45 46 P 38 43 34 45 40 36 32 46 44 42 39 37 35 33 31 41
C 47 49
C 48 50
C 48 49
C 51 52
C 53 55
C 54 56
C 53 54
C 55 56
C 57 58
C 51 57
C 51 53
C 48 51
C 49 53
C 49 51
C 52 58
C 52 54
C 55 57
C 52 55
C 54 57
C 56 58
C 59 61
C 50 59
C 50 53
C 50 52
C 50 51
C 53 55
C 52 53
C 60 62
C 60 61
C 56 60
C 56 59
C 54 56
C 54 55
C 53 54
C 57 59
C 56 57
C 55 56
C 58 61
C 58 60
C 58 59
R 17 W 47 60 52 53 48 59 54 58 49 62 56 57 50 61 51 55 E 47 48 48 49 49 50 50 51 51 52 52 53 53 54 54 55 55 56 56 57 57 58 58 59 59 60 60 61 61 62 P 54 59 50 61 56 52 48 62 60 58 55 53 51 49 47 57
C 46 62
C 0 31
C 1 32
C 2 33
C 3 38
C 4 51
C 5 52
C 6 53
C 7 42
C 8 39
C 9 40
C 10 41
C 11 46
C 12 59
C 13 60
C 14 61
C 15 47
C 0 15
C 16 48
C 1 16
C 17 49
C 2 17
C 18 50
C 7 50
C 18 34
C 19 35
C 4 19
C 20 36
C 5 20
C 21 37
C 6 21
C 22 54
C 3 22
C 3 18
C 23 55
C 8 23
C 24 56
C 9 24
C 25 57
C 10 25
C 26 58
C 26 34
C 7 26
C 7 18
C 27 43
C 12 27
C 12 19
C 28 44
C 13 28
C 13 20
C 29 45
C 14 29
C 14 21
C 30 62
C 30 46
C 31 47
C 15 31
C 4 15
C 1 4
C 8 31
C 8 15
C 2 8
C 2 4
C 32 48
C 16 32
C 5 16
C 9 32
C 9 16
C 3 9
C 3 8
C 33 49
C 17 33
C 6 17
C 10 33
C 10 17
C 35 51
C 19 35
C 19 31
C 36 52
C 20 36
C 20 32
C 37 53
C 21 37
C 21 33
C 38 54
C 11 38
C 22 38
C 11 22
C 30 54
C 30 38
C 39 55
C 23 39
C 23 47
C 12 23
C 12 19
C 12 15
C 6 12
C 5 6
C 3 5
C 3 4
C 6 8
C 5 6
C 9 12
C 10 15
C 23 31
C 19 23
C 35 39
C 40 56
C 24 40
C 24 48
C 13 24
C 13 20
C 13 16
C 7 13
C 7 10
C 7 9
C 7 8
C 10 12
C 9 10
C 24 32
C 20 24
C 36 40
C 41 57
C 25 41
C 25 49
C 14 25
C 14 21
C 14 17
C 14 19
C 13 14
C 17 23
C 25 33
C 21 25
C 37 41
C 42 58
C 42 50
C 34 42
C 26 34
C 11 26
C 11 18
C 11 16
C 11 15
C 11 13
C 11 12
C 14 15
C 13 14
C 16 19
C 18 20
C 17 18
C 16 17
C 15 16
C 18 19
C 17 18
C 20 23
C 22 34
C 22 26
C 22 24
C 42 50
C 30 42
C 30 34
C 38 50
C 38 42
C 43 59
C 27 43
C 27 51
C 27 47
C 27 35
C 27 31
C 21 27
C 21 22
C 20 21
C 19 20
C 22 23
C 21 22
C 24 27
C 25 31
C 39 47
C 35 39
C 43 55
C 43 51
C 43 47
C 44 60
C 28 44
C 28 52
C 28 48
C 28 36
C 28 32
C 26 28
C 25 26
C 24 25
C 23 24
C 26 27
C 25 26
C 28 31
C 30 32
C 40 48
C 36 40
C 34 36
C 38 40
C 44 56
C 44 52
C 44 48
C 42 44
C 45 61
C 29 45
C 29 53
C 29 49
C 29 37
C 29 33
C 29 35
C 29 30
C 28 29
C 27 28
C 30 31
C 29 30
C 32 35
C 33 39
C 33 34
C 32 33
C 31 32
C 34 35
C 33 34
C 38 39
C 41 49
C 37 41
C 37 43
C 36 37
C 36 38
C 35 36
C 37 39
C 37 38
C 41 47
C 40 41
C 42 43
C 40 42
C 39 40
C 41 43
C 41 42
C 44 47
C 45 57
C 45 53
C 45 49
C 45 51
C 46 58
C 46 54
C 46 50
C 46 48
C 45 46
C 44 45
C 43 44
C 46 47
C 45 46
C 49 55
C 49 51
C 50 52
C 48 50
C 48 49
C 47 48
C 50 51
C 49 50
C 53 59
C 52 53
C 54 56
C 54 55
C 52 54
C 51 52
C 53 55
C 53 54
C 56 57
C 58 60
C 58 59
C 56 58
C 55 56
C 57 59
C 57 58
C 61 62
C 60 61
C 59 60
