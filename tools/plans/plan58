0
C 27 38
C 33 37
R 3 W 27 38 E 27 38 P 27 38
R 3 W 33 37 E 33 37 P 33 37
C 19 20
C 51 52
C 31 32
C 4 6
C 43 54
C 29 40
C 10 23
C 42 55
C 46 50
C 28 41
C 47 48
R 3 W 42 55 E 42 55 P 42 55
R 3 W 47 48 E 47 48 P 47 48
C 2 7
C 12 25
R 3 W 12 25 E 12 25 P 12 25
R 3 W 19 20 E 19 20 P 19 20
C 17 21
C 0 8
R 3 W 0 8 E 0 8 P 0 8
R 3 W 2 7 E 2 7 P 2 7
C 15 16
R 3 W 10 23 E 10 23 P 10 23
R 3 W 15 16 E 15 16 P 15 16
C 30 34
R 3 W 29 40 E 29 40 P 29 40
R 3 W 30 34 E 30 34 P 30 34
C 45 56
R 3 W 45 56 E 45 56 P 45 56
R 3 W 46 50 E 46 50 P 46 50
C 14 18
C 3 5
R 3 W 3 5 E 3 5 P 3 5
C 49 53
R 3 W 43 54 E 43 54 P 43 54
R 3 W 49 53 E 49 53 P 49 53
C 1 9
R 3 W 1 9 E 1 9 P 1 9
R 3 W 4 6 E 4 6 P 4 6
C 26 39
R 3 W 26 39 E 26 39 P 26 39
R 3 W 31 32 E 31 32 P 31 32
C 11 22
R 3 W 11 22 E 11 22 P 11 22
R 3 W 17 21 E 17 21 P 17 21
C 13 24
R 3 W 13 24 E 13 24 P 13 24
R 3 W 14 18 E 14 18 P 14 18
C 35 36
R 3 W 28 41 E 28 41 P 28 41
R 3 W 35 36 E 35 36 P 35 36
C 44 57
R 3 W 44 57 E 44 57 P 44 57
R 3 W 51 52 E 51 52 P 51 52
C 37 38
C 27 33
C 29 30
C 34 40
C 7 9
C 44 51
C 52 57
C 10 15
C 16 23
C 53 54
C 43 49
R 6 W 49 53 43 54 E 43 49 43 53 49 54 53 54 P 49 53 54 43
R 6 W 44 57 51 52 E 44 51 44 52 51 57 52 57 P 51 57 44 52
C 50 56
C 45 46
R 6 W 46 50 45 56 E 45 46 45 50 46 56 50 56 P 46 50 56 45
C 12 19
C 20 25
C 26 31
C 32 39
R 6 W 26 39 31 32 E 26 31 26 32 31 39 32 39 P 31 39 26 32
R 6 W 33 37 27 38 E 27 33 27 37 33 38 37 38 P 33 37 38 27
R 6 W 29 40 30 34 E 29 30 29 34 30 40 34 40 P 30 40 29 34
C 28 35
C 36 41
R 6 W 28 41 35 36 E 28 35 28 36 35 41 36 41 P 35 41 28 36
C 48 55
C 42 47
R 6 W 47 48 42 55 E 42 47 42 48 47 55 48 55 P 47 48 55 42
C 11 17
C 21 22
R 6 W 10 23 15 16 E 10 15 10 16 15 23 16 23 P 15 23 10 16
R 6 W 11 22 17 21 E 11 17 11 21 17 22 21 22 P 17 22 11 21
R 6 W 12 25 19 20 E 12 19 12 20 19 25 20 25 P 19 25 12 20
C 5 8
C 13 14
C 18 24
R 6 W 13 24 14 18 E 13 14 13 18 14 24 18 24 P 14 24 13 18
C 6 9
C 1 4
C 28 29
C 40 41
C 52 53
C 49 51
C 14 15
C 16 18
C 46 47
C 48 50
C 17 19
C 20 21
C 26 27
C 38 39
C 8 9
C 0 2
C 0 3
C 0 1
C 2 4
C 3 6
C 2 3
C 4 8
C 5 7
C 1 5
C 1 2
C 3 5
C 2 3
C 6 7
C 4 6
C 4 5
C 3 4
C 7 8
C 6 7
C 5 6
C 16 17
C 10 11
C 12 13
C 10 12
C 11 13
C 11 12
C 14 20
C 14 16
C 11 14
C 12 16
C 12 14
C 15 21
C 15 17
C 18 19
C 18 20
C 15 18
C 17 20
C 19 21
C 22 23
C 24 25
C 22 24
C 13 22
C 13 16
C 13 15
C 13 14
C 16 18
C 15 16
C 23 25
C 23 24
C 19 23
C 19 22
C 17 19
C 17 18
C 16 17
C 20 22
C 19 20
C 18 19
C 21 24
C 21 23
C 21 22
R 11 W 3 5 0 8 4 6 2 7 1 9 E 0 1 1 2 2 3 3 4 4 5 5 6 6 7 7 8 8 9 P 5 8 2 9 6 3 0 7 4 1
R 17 W 13 24 14 18 10 23 15 16 11 22 17 21 12 25 19 20 E 10 11 11 12 12 13 13 14 14 15 15 16 16 17 17 18 18 19 19 20 20 21 21 22 22 23 23 24 24 25 P 18 22 13 24 20 15 11 25 23 21 19 16 14 12 10 17
C 8 22
C 2 12
C 3 13
C 9 23
C 12 20
C 13 21
C 38 40
C 26 28
C 27 29
C 27 28
C 29 38
C 30 31
C 32 34
C 33 35
C 32 33
C 34 35
C 36 37
C 30 36
C 30 32
C 27 30
C 28 32
C 28 30
C 29 32
C 31 37
C 31 33
C 34 36
C 31 34
C 29 31
C 29 30
C 32 34
C 31 32
C 33 36
C 35 37
C 39 41
C 39 40
C 35 39
C 35 38
C 33 35
C 33 34
C 32 33
C 36 38
C 35 36
C 34 35
C 37 40
C 37 39
C 37 38
R 17 W 26 39 31 32 33 37 27 38 28 41 35 36 29 40 30 34 E 26 27 27 28 28 29 29 30 30 31 31 32 32 33 33 34 34 35 35 36 36 37 37 38 38 39 39 40 40 41 P 33 37 29 39 35 31 27 41 38 36 34 32 30 28 26 40
C 42 43
C 44 45
C 42 44
C 43 45
C 43 44
C 46 52
C 47 53
C 48 49
C 46 48
C 43 46
C 44 48
C 44 46
C 47 49
C 50 51
C 50 52
C 47 50
C 49 52
C 51 53
C 54 55
C 56 57
C 54 56
C 45 54
C 45 48
C 45 47
C 45 46
C 48 50
C 47 48
C 55 57
C 55 56
C 51 55
C 51 54
C 49 51
C 49 50
C 48 49
C 52 54
C 51 52
C 50 51
C 53 56
C 53 55
C 53 54
R 17 W 46 50 45 56 47 48 42 55 44 57 51 52 49 53 43 54 E 42 43 43 44 44 45 45 46 46 47 47 48 48 49 49 50 50 51 51 52 52 53 53 54 54 55 55 56 56 57 P 50 54 46 56 52 48 44 57 55 53 51 49 47 45 42 43
C 38 54
C 28 44
C 29 45
C 32 48
C 33 49
C 36 52
C 37 53
C 39 55
C 5 35
C 0 30
C 1 31
C 2 28
C 3 29
C 4 34
C 6 56
C 7 57
C 8 38
C 9 39
C 10 42
C 4 42
C 10 26
C 11 43
C 5 43
C 11 27
C 12 44
C 12 28
C 13 45
C 13 29
C 14 46
C 0 14
C 0 10
C 15 47
C 1 15
C 1 11
C 18 50
C 18 26
C 4 18
C 4 10
C 1 4
C 19 51
C 19 27
C 5 19
C 5 11
C 20 52
C 20 36
C 20 28
C 21 53
C 21 37
C 21 29
C 22 54
C 22 38
C 23 55
C 23 39
C 24 40
C 6 24
C 6 16
C 6 32
C 6 12
C 12 20
C 16 48
C 16 32
C 25 41
C 7 25
C 7 17
C 7 33
C 7 13
C 13 21
C 17 49
C 17 33
C 30 46
C 8 30
C 14 30
C 8 14
C 22 46
C 22 30
C 31 47
C 9 31
C 15 31
C 9 15
C 23 47
C 23 31
C 34 50
C 34 42
C 26 34
C 18 26
C 8 18
C 8 10
C 2 8
C 2 4
C 6 10
C 5 6
C 14 26
C 14 18
C 12 14
C 34 42
C 22 34
C 22 26
C 30 42
C 30 34
C 35 51
C 35 43
C 27 35
C 19 27
C 9 19
C 9 11
C 3 9
C 3 8
C 3 5
C 3 4
C 6 8
C 5 6
C 7 11
C 7 12
C 9 10
C 7 9
C 7 8
C 10 12
C 9 10
C 11 14
C 15 27
C 15 19
C 13 15
C 35 43
C 23 35
C 23 27
C 31 43
C 31 35
C 36 44
C 28 36
C 16 28
C 16 20
C 16 18
C 13 16
C 11 13
C 11 12
C 14 16
C 13 14
C 20 22
C 15 20
C 37 45
C 29 37
C 17 29
C 17 21
C 17 19
C 17 18
C 15 17
C 15 16
C 18 20
C 17 18
C 21 23
C 21 22
C 38 50
C 38 46
C 38 42
C 39 51
C 39 47
C 39 43
C 40 56
C 24 40
C 24 48
C 24 32
C 24 36
C 24 28
C 24 26
C 19 24
C 19 21
C 19 20
C 22 24
C 21 22
C 28 30
C 23 28
C 32 44
C 32 36
C 32 34
C 30 32
C 36 38
C 40 52
C 40 48
C 40 44
C 40 42
C 41 57
C 25 41
C 25 49
C 25 33
C 25 37
C 25 29
C 25 27
C 25 26
C 23 25
C 23 24
C 26 28
C 25 26
C 29 31
C 27 29
C 27 30
C 27 28
C 29 32
C 29 30
C 31 34
C 33 45
C 33 37
C 33 35
C 33 36
C 31 33
C 31 32
C 34 36
C 33 34
C 35 38
C 37 39
C 37 40
C 35 37
C 35 36
C 38 40
C 37 38
C 39 42
C 41 53
C 41 49
C 41 45
C 41 43
C 44 46
C 41 44
C 39 41
C 39 40
C 42 44
C 41 42
C 45 47
C 45 46
C 48 50
C 43 48
C 43 45
C 43 44
C 46 48
C 45 46
C 47 50
C 49 51
C 52 54
C 49 52
C 49 50
C 47 49
C 47 48
C 50 52
C 51 54
C 53 56
C 55 57
C 54 55
C 53 54
C 51 53
C 51 52
C 55 56
C 54 55
