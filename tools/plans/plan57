0
C 0 8
C 1 7
R 3 W 0 8 E 0 8 P 0 8
R 3 W 1 7 E 1 7 P 1 7
C 2 6
C 3 11
C 4 10
R 3 W 3 11 E 3 11 P 3 11
R 3 W 4 10 E 4 10 P 4 10
C 5 9
R 3 W 2 6 E 2 6 P 2 6
R 3 W 5 9 E 5 9 P 5 9
C 12 24
C 13 22
C 14 21
C 15 19
R 3 W 14 21 E 14 21 P 14 21
R 3 W 15 19 E 15 19 P 15 19
C 17 23
R 3 W 17 23 E 17 23 P 17 23
C 18 20
R 3 W 13 22 E 13 22 P 13 22
R 3 W 18 20 E 18 20 P 18 20
C 25 38
C 26 37
C 27 40
C 28 39
C 29 33
R 3 W 28 39 E 28 39 P 28 39
R 3 W 29 33 E 29 33 P 29 33
C 30 31
R 3 W 25 38 E 25 38 P 25 38
R 3 W 30 31 E 30 31 P 30 31
C 32 36
R 3 W 26 37 E 26 37 P 26 37
R 3 W 32 36 E 32 36 P 32 36
C 34 35
R 3 W 27 40 E 27 40 P 27 40
R 3 W 34 35 E 34 35 P 34 35
C 41 54
C 42 53
C 43 56
C 44 55
C 45 49
R 3 W 44 55 E 44 55 P 44 55
R 3 W 45 49 E 45 49 P 45 49
C 46 47
R 3 W 41 54 E 41 54 P 41 54
R 3 W 46 47 E 46 47 P 46 47
C 48 52
R 3 W 42 53 E 42 53 P 42 53
R 3 W 48 52 E 48 52 P 48 52
C 50 51
R 3 W 43 56 E 43 56 P 43 56
R 3 W 50 51 E 50 51 P 50 51
C 16 23
R 3 W 12 24 E 12 24 P 12 24
R 5 W 16 17 23 E 16 23 17 23 P 23 16 17
C 0 1
C 7 8
C 2 5
C 6 9
R 6 W 0 8 1 7 E 0 1 0 7 1 8 7 8 P 1 8 0 7
R 6 W 2 6 5 9 E 2 6 2 5 6 9 5 9 P 6 5 2 9
C 3 4
C 10 11
R 6 W 3 11 4 10 E 3 4 3 10 4 11 10 11 P 4 11 3 10
C 13 18
C 20 22
C 14 15
C 19 21
R 6 W 13 22 18 20 E 13 18 13 20 18 22 20 22 P 18 22 13 20
R 6 W 14 21 15 19 E 14 15 14 19 15 21 19 21 P 15 21 14 19
C 25 30
C 31 38
C 26 32
C 36 37
R 6 W 25 38 30 31 E 25 30 25 31 30 38 31 38 P 30 38 25 31
R 6 W 26 37 32 36 E 26 32 26 36 32 37 36 37 P 32 37 26 36
C 27 34
C 35 40
R 6 W 27 40 34 35 E 27 34 27 35 34 40 35 40 P 34 40 27 35
C 28 29
C 33 39
R 6 W 28 39 29 33 E 28 29 28 33 29 39 33 39 P 29 39 28 33
C 41 46
C 47 54
C 42 48
C 52 53
R 6 W 41 54 46 47 E 41 46 41 47 46 54 47 54 P 46 54 41 47
R 6 W 42 53 48 52 E 42 48 42 52 48 53 52 53 P 48 53 42 52
C 43 50
C 51 56
R 6 W 43 56 50 51 E 43 50 43 51 50 56 51 56 P 50 56 43 51
C 44 45
C 49 55
R 6 W 44 55 45 49 E 44 45 44 49 45 55 49 55 P 45 55 44 49
C 12 16
C 23 24
C 0 2
C 1 6
C 1 2
C 13 14
C 15 18
C 19 20
C 21 22
R 11 W 12 24 16 17 23 E 12 16 12 23 17 24 16 24 23 24 P 16 24 12 17 23
R 20 W 13 22 18 20 14 21 15 19 E 13 14 13 15 13 19 14 18 14 20 15 18 15 21 19 20 19 21 18 22 20 22 21 22 P 18 20 19 22 21 15 13 14
C 25 26
C 37 38
C 27 28
C 39 40
C 41 42
C 53 54
C 43 44
C 55 56
C 0 3
C 4 6
C 1 4
C 5 10
C 5 7
C 3 5
C 1 3
C 2 5
C 2 3
C 4 5
C 9 11
C 8 11
C 6 8
C 9 10
C 6 9
C 7 10
C 6 7
C 4 6
C 3 4
C 5 7
C 5 6
C 8 10
C 8 9
C 7 8
C 16 18
C 16 19
C 17 21
C 12 17
C 12 13
C 14 17
C 14 16
C 20 23
C 15 20
C 13 15
C 13 14
C 15 16
C 14 15
C 18 23
C 19 20
C 22 24
C 21 22
C 18 21
C 17 18
C 17 19
C 16 17
C 15 16
C 18 20
C 18 19
C 17 18
C 22 23
C 21 22
C 20 21
R 13 W 0 8 1 7 2 6 5 9 3 11 4 10 E 0 1 1 2 2 3 3 4 4 5 5 6 6 7 7 8 8 9 9 10 10 11 P 6 9 2 11 8 4 0 10 7 5 3 1
R 14 W 12 24 16 17 23 13 22 18 20 14 21 15 19 E 12 13 13 14 14 15 15 16 16 17 17 18 18 19 19 20 20 21 21 22 22 23 23 24 P 18 22 14 24 20 16 12 23 21 19 17 15 13
C 5 17
C 6 18
C 7 19
C 8 24
C 9 21
C 10 22
C 11 23
C 25 27
C 26 28
C 26 27
C 29 30
C 31 33
C 32 34
C 31 32
C 33 34
C 35 36
C 29 35
C 29 31
C 26 29
C 27 31
C 27 29
C 30 36
C 30 32
C 33 35
C 30 33
C 32 35
C 34 36
C 37 39
C 28 37
C 28 31
C 28 30
C 28 29
C 31 33
C 30 31
C 38 40
C 38 39
C 34 38
C 34 37
C 32 34
C 32 33
C 31 32
C 35 37
C 34 35
C 33 34
C 36 39
C 36 38
C 36 37
R 17 W 25 38 30 31 26 37 32 36 27 40 34 35 28 39 29 33 E 25 26 26 27 27 28 28 29 29 30 30 31 31 32 32 33 33 34 34 35 35 36 36 37 37 38 38 39 39 40 P 32 37 28 39 34 30 26 40 38 36 33 31 29 27 25 35
C 41 43
C 42 44
C 42 43
C 45 46
C 47 49
C 48 50
C 47 48
C 49 50
C 51 52
C 45 51
C 45 47
C 42 45
C 43 47
C 43 45
C 46 52
C 46 48
C 49 51
C 46 49
C 48 51
C 50 52
C 53 55
C 44 53
C 44 47
C 44 46
C 44 45
C 47 49
C 46 47
C 54 56
C 54 55
C 50 54
C 50 53
C 48 50
C 48 49
C 47 48
C 51 53
C 50 51
C 49 50
C 52 55
C 52 54
C 52 53
R 17 W 41 54 46 47 42 53 48 52 43 56 50 51 44 55 45 49 E 41 42 42 43 43 44 44 45 45 46 46 47 47 48 48 49 49 50 50 51 51 52 52 53 53 54 54 55 55 56 P 48 53 44 55 50 46 42 56 54 52 49 47 45 43 41 51
C 30 46
C 31 47
C 32 48
C 34 50
C 35 51
C 36 52
C 37 53
C 38 54
C 39 55
C 40 56
C 0 29
C 1 26
C 2 27
C 3 28
C 4 33
C 5 30
C 6 31
C 7 32
C 8 37
C 9 50
C 9 34
C 10 51
C 10 35
C 11 52
C 11 36
C 12 41
C 4 41
C 12 25
C 13 42
C 1 13
C 14 43
C 2 14
C 15 44
C 3 15
C 16 45
C 0 16
C 0 12
C 17 38
C 18 39
C 19 40
C 20 49
C 20 25
C 4 20
C 4 12
C 1 4
C 21 54
C 21 38
C 22 55
C 22 39
C 23 56
C 23 40
C 24 53
C 24 37
C 26 42
C 13 26
C 5 13
C 9 26
C 9 13
C 3 9
C 27 43
C 14 27
C 6 14
C 10 27
C 10 14
C 28 44
C 15 28
C 7 15
C 11 28
C 11 15
C 29 45
C 8 29
C 16 29
C 8 16
C 24 45
C 24 29
C 30 46
C 17 30
C 21 46
C 21 30
C 31 47
C 18 31
C 22 47
C 22 31
C 32 48
C 19 32
C 23 48
C 23 32
C 33 49
C 33 41
C 25 33
C 20 25
C 8 20
C 8 12
C 2 8
C 2 4
C 3 8
C 6 12
C 5 6
C 3 5
C 3 4
C 6 8
C 5 6
C 9 12
C 16 25
C 16 20
C 10 16
C 33 41
C 24 33
C 24 25
C 29 41
C 29 33
C 34 42
C 26 34
C 17 26
C 13 17
C 7 13
C 7 10
C 7 9
C 7 8
C 10 12
C 9 10
C 11 17
C 13 16
C 21 34
C 21 26
C 35 43
C 27 35
C 18 27
C 14 18
C 14 20
C 11 14
C 11 13
C 11 12
C 14 16
C 13 14
C 18 24
C 17 18
C 22 35
C 22 27
C 22 25
C 22 24
C 27 29
C 36 44
C 28 36
C 19 28
C 15 19
C 15 21
C 15 20
C 15 17
C 15 16
C 18 20
C 17 18
C 19 26
C 19 21
C 19 22
C 19 20
C 21 24
C 21 22
C 23 36
C 23 28
C 25 26
C 37 49
C 37 45
C 37 41
C 38 50
C 38 42
C 30 38
C 30 34
C 23 30
C 23 27
C 23 25
C 23 24
C 26 27
C 25 26
C 28 34
C 29 30
C 39 51
C 39 43
C 31 39
C 31 35
C 31 33
C 28 31
C 28 29
C 27 28
C 30 31
C 29 30
C 35 37
C 33 35
C 40 52
C 40 44
C 32 40
C 32 36
C 42 46
C 38 42
C 32 38
C 32 34
C 32 33
C 31 32
C 34 35
C 33 34
C 36 42
C 36 37
C 43 47
C 39 43
C 39 41
C 38 39
C 36 38
C 35 36
C 37 39
C 37 38
C 43 45
C 42 43
C 44 48
C 40 44
C 40 46
C 40 41
C 40 42
C 39 40
C 41 43
C 41 42
C 44 50
C 45 46
C 47 49
C 44 47
C 44 45
C 43 44
C 46 47
C 45 46
C 48 54
C 49 50
C 51 53
C 48 51
C 48 49
C 47 48
C 50 51
C 49 50
C 52 55
C 53 55
C 53 54
C 52 53
C 51 52
C 53 54
C 55 56
