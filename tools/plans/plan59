0
C 12 23
C 29 42
C 0 9
C 14 25
C 1 6
R 3 W 0 9 E 0 9 P 0 9
R 3 W 1 6 E 1 6 P 1 6
C 2 4
R 3 W 2 4 E 2 4 P 2 4
C 44 55
C 45 58
C 27 40
C 47 51
C 13 26
C 32 33
R 3 W 27 40 E 27 40 P 27 40
R 3 W 32 33 E 32 33 P 32 33
C 30 41
C 36 37
R 3 W 29 42 E 29 42 P 29 42
R 3 W 36 37 E 36 37 P 36 37
C 34 38
C 50 54
R 3 W 44 55 E 44 55 P 44 55
R 3 W 50 54 E 50 54 P 50 54
C 46 57
R 3 W 46 57 E 46 57 P 46 57
R 3 W 47 51 E 47 51 P 47 51
C 20 21
R 3 W 13 26 E 13 26 P 13 26
R 3 W 20 21 E 20 21 P 20 21
C 43 56
C 31 35
R 3 W 30 41 E 30 41 P 30 41
R 3 W 31 35 E 31 35 P 31 35
C 48 49
R 3 W 43 56 E 43 56 P 43 56
R 3 W 48 49 E 48 49 P 48 49
C 18 22
R 3 W 12 23 E 12 23 P 12 23
R 3 W 18 22 E 18 22 P 18 22
C 52 53
R 3 W 45 58 E 45 58 P 45 58
R 3 W 52 53 E 52 53 P 52 53
C 16 17
C 3 7
C 5 8
R 3 W 3 7 E 3 7 P 3 7
R 3 W 5 8 E 5 8 P 5 8
C 35 41
C 30 31
C 15 19
R 3 W 14 25 E 14 25 P 14 25
R 3 W 15 19 E 15 19 P 15 19
C 28 39
R 3 W 28 39 E 28 39 P 28 39
R 3 W 34 38 E 34 38 P 34 38
C 38 39
C 28 34
C 4 10
C 43 48
C 49 56
C 11 24
R 3 W 11 24 E 11 24 P 11 24
R 3 W 16 17 E 16 17 P 16 17
C 19 25
C 14 15
C 22 23
C 12 18
C 0 1
C 6 9
C 33 40
C 27 32
R 6 W 32 33 27 40 E 27 32 27 33 32 40 33 40 P 32 33 40 27
R 6 W 34 38 28 39 E 28 34 28 38 34 39 38 39 P 34 38 39 28
R 6 W 31 35 30 41 E 30 31 30 35 31 41 35 41 P 31 35 41 30
C 54 55
C 44 50
R 6 W 43 56 48 49 E 43 48 43 49 48 56 49 56 P 48 56 43 49
R 6 W 50 54 44 55 E 44 50 44 54 50 55 54 55 P 50 54 55 44
C 37 42
C 29 36
R 6 W 36 37 29 42 E 29 36 29 37 36 42 37 42 P 36 37 42 29
C 13 20
C 21 26
R 6 W 13 26 20 21 E 13 20 13 21 20 26 21 26 P 20 26 13 21
R 6 W 15 19 14 25 E 14 15 14 19 15 25 19 25 P 15 19 25 14
R 6 W 18 22 12 23 E 12 18 12 22 18 23 22 23 P 18 22 23 12
C 17 24
C 11 16
R 6 W 16 17 11 24 E 11 16 11 17 16 24 17 24 P 16 17 24 11
C 53 58
C 45 52
R 6 W 52 53 45 58 E 45 52 45 53 52 58 53 58 P 52 53 58 45
C 46 47
C 51 57
R 6 W 46 57 47 51 E 46 47 46 51 47 57 51 57 P 47 57 46 51
C 3 5
C 7 8
R 6 W 0 9 1 6 E 0 1 0 6 1 9 6 9 P 1 9 0 6
R 6 W 3 7 5 8 E 3 7 3 5 7 8 5 8 P 7 5 3 8
R 5 W 2 4 10 E 2 10 4 10 P 10 2 4
C 4 7
C 2 5
C 8 10
R 19 W 2 4 10 3 7 5 8 E 2 5 2 8 4 7 4 8 3 7 3 5 7 10 5 10 8 10 P 7 5 2 10 4 8 3
C 21 22
C 18 20
C 41 42
C 29 30
C 17 19
C 15 16
C 53 54
C 50 52
C 49 51
C 47 48
C 39 40
C 27 28
C 5 9
C 0 4
C 1 3
C 1 2
C 0 1
C 3 7
C 4 5
C 6 8
C 2 6
C 2 4
C 1 2
C 3 6
C 3 4
C 2 3
C 7 8
C 5 7
C 5 6
C 4 5
C 9 10
C 8 9
C 7 8
C 6 7
C 31 32
C 27 29
C 28 30
C 28 29
C 33 35
C 34 36
C 33 34
C 35 36
C 37 38
C 31 37
C 31 33
C 28 31
C 29 33
C 29 31
C 32 38
C 32 34
C 35 37
C 32 35
C 34 37
C 36 38
C 39 41
C 30 39
C 30 33
C 30 32
C 30 31
C 33 35
C 32 33
C 40 42
C 40 41
C 36 40
C 36 39
C 34 36
C 34 35
C 33 34
C 37 39
C 36 37
C 35 36
C 38 41
C 38 40
C 38 39
R 12 W 2 4 10 3 7 5 8 0 9 1 6 E 0 1 1 2 2 3 3 4 4 5 5 6 6 7 7 8 8 9 9 10 P 5 8 2 10 7 4 0 9 6 3 1
R 17 W 31 35 30 41 36 37 29 42 34 38 28 39 32 33 27 40 E 27 28 28 29 29 30 30 31 31 32 32 33 33 34 34 35 35 36 36 37 37 38 38 39 39 40 40 41 41 42 P 35 39 31 41 37 33 29 42 40 38 36 34 32 30 28 27
C 0 31
C 1 32
C 2 33
C 4 35
C 5 36
C 6 37
C 55 56
C 43 44
C 45 46
C 43 45
C 44 46
C 44 45
C 47 53
C 48 54
C 49 50
C 47 49
C 44 47
C 45 49
C 45 47
C 48 50
C 51 52
C 51 53
C 48 51
C 50 53
C 52 54
C 57 58
C 55 57
C 46 55
C 46 49
C 46 48
C 46 47
C 49 51
C 48 49
C 56 58
C 56 57
C 52 56
C 52 55
C 50 52
C 50 51
C 49 50
C 53 55
C 52 53
C 51 52
C 54 57
C 54 56
C 54 55
R 17 W 52 53 45 58 50 54 44 55 43 56 48 49 46 57 47 51 E 43 44 44 45 45 46 46 47 47 48 48 49 49 50 50 51 51 52 52 53 53 54 54 55 55 56 56 57 57 58 P 50 54 46 56 52 48 44 58 55 53 51 49 47 45 43 57
C 19 20
C 11 12
C 13 14
C 11 13
C 12 14
C 12 13
C 15 21
C 16 22
C 17 18
C 15 17
C 12 15
C 13 17
C 13 15
C 16 18
C 19 21
C 16 19
C 18 21
C 20 22
C 23 24
C 25 26
C 23 25
C 14 23
C 14 17
C 14 16
C 14 15
C 17 19
C 16 17
C 24 26
C 24 25
C 20 24
C 20 23
C 18 20
C 18 19
C 17 18
C 21 23
C 20 21
C 19 20
C 22 25
C 22 24
C 22 23
R 17 W 16 17 11 24 15 19 14 25 13 26 20 21 18 22 12 23 E 11 12 12 13 13 14 14 15 15 16 16 17 17 18 18 19 19 20 20 21 21 22 22 23 23 24 24 25 25 26 P 19 23 15 25 21 17 13 26 24 22 20 18 16 14 11 12
C 19 51
C 11 43
C 12 44
C 13 45
C 15 47
C 16 48
C 17 49
C 20 52
C 21 53
C 38 54
C 0 15
C 1 16
C 2 17
C 3 14
C 4 43
C 5 44
C 6 45
C 7 58
C 8 23
C 9 24
C 10 25
C 11 27
C 0 11
C 12 28
C 1 12
C 13 29
C 2 13
C 14 22
C 19 27
C 4 19
C 4 11
C 1 4
C 20 28
C 5 20
C 5 12
C 21 29
C 6 21
C 6 13
C 22 54
C 22 38
C 26 42
C 7 26
C 7 18
C 30 46
C 3 30
C 14 46
C 14 30
C 22 30
C 31 47
C 32 48
C 33 49
C 34 50
C 7 34
C 7 14
C 14 22
C 18 50
C 18 34
C 35 51
C 35 43
C 27 35
C 19 27
C 35 43
C 36 52
C 36 44
C 28 36
C 20 28
C 36 44
C 37 53
C 37 45
C 29 37
C 21 29
C 37 45
C 38 46
C 30 38
C 18 30
C 18 22
C 39 55
C 8 39
C 8 31
C 15 31
C 8 15
C 8 19
C 8 11
C 2 8
C 2 4
C 6 11
C 6 8
C 15 27
C 15 19
C 23 55
C 23 39
C 23 47
C 23 31
C 23 35
C 23 27
C 31 43
C 31 35
C 39 51
C 39 47
C 39 43
C 40 56
C 9 40
C 9 32
C 16 32
C 9 16
C 9 20
C 9 12
C 3 9
C 3 5
C 3 6
C 3 4
C 5 8
C 5 6
C 7 12
C 7 9
C 16 28
C 16 20
C 14 16
C 18 20
C 24 56
C 24 40
C 24 48
C 24 32
C 24 36
C 24 28
C 22 24
C 20 22
C 32 44
C 32 36
C 40 52
C 40 48
C 40 44
C 41 57
C 10 41
C 10 33
C 17 33
C 10 17
C 10 21
C 10 13
C 10 15
C 10 11
C 7 10
C 7 8
C 9 11
C 9 10
C 13 19
C 12 13
C 14 15
C 12 14
C 11 12
C 13 15
C 13 14
C 16 19
C 17 29
C 17 21
C 17 23
C 17 18
C 16 17
C 15 16
C 18 19
C 17 18
C 21 27
C 21 23
C 20 21
C 19 20
C 22 23
C 21 22
C 24 27
C 25 57
C 25 41
C 25 49
C 25 33
C 25 37
C 25 29
C 25 31
C 29 35
C 33 45
C 33 37
C 33 39
C 37 43
C 41 53
C 41 49
C 41 45
C 41 47
C 41 43
C 42 58
C 26 42
C 26 50
C 26 34
C 26 38
C 26 30
C 26 28
C 25 26
C 24 25
C 23 24
C 26 27
C 25 26
C 28 31
C 30 32
C 29 30
C 28 29
C 27 28
C 30 31
C 29 30
C 32 35
C 34 46
C 34 38
C 34 36
C 33 34
C 32 33
C 31 32
C 34 35
C 33 34
C 36 39
C 38 40
C 37 38
C 36 37
C 35 36
C 38 39
C 37 38
C 42 54
C 42 50
C 42 46
C 42 44
C 40 42
C 40 41
C 39 40
C 42 43
C 41 42
C 45 51
C 44 45
C 46 48
C 46 47
C 44 46
C 43 44
C 45 47
C 45 46
C 49 55
C 49 51
C 50 53
C 50 52
C 48 50
C 48 49
C 47 48
C 50 51
C 49 50
C 54 56
C 54 55
C 52 54
C 51 52
C 53 55
C 53 54
C 57 58
C 56 57
C 55 56
