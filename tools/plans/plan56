0
C 0 13
C 1 12
C 2 15
C 3 14
C 4 8
R 3 W 3 14 E 3 14 P 3 14
R 3 W 4 8 E 4 8 P 4 8
C 5 6
R 3 W 0 13 E 0 13 P 0 13
R 3 W 5 6 E 5 6 P 5 6
C 7 11
R 3 W 1 12 E 1 12 P 1 12
R 3 W 7 11 E 7 11 P 7 11
C 9 10
R 3 W 2 15 E 2 15 P 2 15
R 3 W 9 10 E 9 10 P 9 10
C 16 37
C 17 36
C 18 39
C 19 38
C 20 32
R 3 W 19 38 E 19 38 P 19 38
R 3 W 20 32 E 20 32 P 20 32
C 21 22
R 3 W 16 37 E 16 37 P 16 37
R 3 W 21 22 E 21 22 P 21 22
C 23 35
R 3 W 17 36 E 17 36 P 17 36
R 3 W 23 35 E 23 35 P 23 35
C 24 26
C 25 27
C 28 30
R 3 W 24 26 E 24 26 P 24 26
R 3 W 28 30 E 28 30 P 28 30
C 29 31
R 3 W 25 27 E 25 27 P 25 27
R 3 W 29 31 E 29 31 P 29 31
C 33 34
R 3 W 18 39 E 18 39 P 18 39
R 3 W 33 34 E 33 34 P 33 34
C 40 53
C 41 52
C 42 55
C 43 54
C 44 48
R 3 W 43 54 E 43 54 P 43 54
R 3 W 44 48 E 44 48 P 44 48
C 45 46
R 3 W 40 53 E 40 53 P 40 53
R 3 W 45 46 E 45 46 P 45 46
C 47 51
R 3 W 41 52 E 41 52 P 41 52
R 3 W 47 51 E 47 51 P 47 51
C 49 50
R 3 W 42 55 E 42 55 P 42 55
R 3 W 49 50 E 49 50 P 49 50
C 0 5
C 6 13
C 1 7
C 11 12
R 6 W 0 13 5 6 E 0 5 0 6 5 13 6 13 P 5 13 0 6
R 6 W 1 12 7 11 E 1 7 1 11 7 12 11 12 P 7 12 1 11
C 2 9
C 10 15
R 6 W 2 15 9 10 E 2 9 2 10 9 15 10 15 P 9 15 2 10
C 3 4
C 8 14
R 6 W 3 14 4 8 E 3 4 3 8 4 14 8 14 P 4 14 3 8
C 16 21
C 22 37
C 17 23
C 35 36
R 6 W 16 37 21 22 E 16 21 16 22 21 37 22 37 P 21 37 16 22
R 6 W 17 36 23 35 E 17 23 17 35 23 36 35 36 P 23 36 17 35
C 18 33
C 34 39
R 6 W 18 39 33 34 E 18 33 18 34 33 39 34 39 P 33 39 18 34
C 19 20
C 32 38
R 6 W 19 38 20 32 E 19 20 19 32 20 38 32 38 P 20 38 19 32
C 24 28
C 26 30
C 25 29
C 27 31
R 6 W 24 26 28 30 E 24 26 24 28 26 30 28 30 P 26 28 24 30
R 6 W 25 27 29 31 E 25 27 25 29 27 31 29 31 P 27 29 25 31
C 40 45
C 46 53
C 41 47
C 51 52
R 6 W 40 53 45 46 E 40 45 40 46 45 53 46 53 P 45 53 40 46
R 6 W 41 52 47 51 E 41 47 41 51 47 52 51 52 P 47 52 41 51
C 42 49
C 50 55
R 6 W 42 55 49 50 E 42 49 42 50 49 55 50 55 P 49 55 42 50
C 43 44
C 48 54
R 6 W 43 54 44 48 E 43 44 43 48 44 54 48 54 P 44 54 43 48
C 0 1
C 12 13
C 2 3
C 14 15
C 16 17
C 36 37
C 18 19
C 38 39
C 24 25
C 26 27
C 28 29
C 26 28
C 25 28
C 25 26
C 27 29
C 30 31
C 27 30
C 27 28
C 29 30
C 40 41
C 52 53
C 42 43
C 54 55
C 0 2
C 1 3
C 1 2
C 4 5
C 6 8
C 7 9
C 6 7
C 8 9
C 10 11
C 4 10
C 4 6
C 1 4
C 2 6
C 2 4
C 5 11
C 5 7
C 8 10
C 5 8
C 7 10
C 9 11
C 12 14
C 3 12
C 3 6
C 3 5
C 3 4
C 6 8
C 5 6
C 13 15
C 13 14
C 9 13
C 9 12
C 7 9
C 7 8
C 6 7
C 10 12
C 9 10
C 8 9
C 11 14
C 11 13
C 11 12
R 17 W 0 13 5 6 1 12 7 11 2 15 9 10 3 14 4 8 E 0 1 1 2 2 3 3 4 4 5 5 6 6 7 7 8 8 9 9 10 10 11 11 12 12 13 13 14 14 15 P 7 12 3 14 9 5 1 15 13 11 8 6 4 2 0 10
R 9 W 24 26 28 30 25 27 29 31 E 24 25 25 26 26 27 27 28 28 29 29 30 30 31 P 28 30 26 31 29 27 24 25
C 0 24
C 2 26
C 3 27
C 14 30
C 16 18
C 17 19
C 17 18
C 20 21
C 22 32
C 23 33
C 22 23
C 32 33
C 34 35
C 20 34
C 20 22
C 17 20
C 18 22
C 18 20
C 21 35
C 21 23
C 32 34
C 21 32
C 23 34
C 33 35
C 36 38
C 19 36
C 19 22
C 19 21
C 19 20
C 22 32
C 21 22
C 37 39
C 37 38
C 33 37
C 33 36
C 23 33
C 23 32
C 22 23
C 34 36
C 33 34
C 32 33
C 35 38
C 35 37
C 35 36
R 17 W 16 37 21 22 17 36 23 35 18 39 33 34 19 38 20 32 E 16 17 17 18 18 19 19 20 20 21 21 22 22 23 23 32 32 33 33 34 34 35 35 36 36 37 37 38 38 39 P 23 36 19 38 33 21 17 39 37 35 32 22 20 18 16 34
C 40 42
C 41 43
C 41 42
C 44 45
C 46 48
C 47 49
C 46 47
C 48 49
C 50 51
C 44 50
C 44 46
C 41 44
C 42 46
C 42 44
C 45 51
C 45 47
C 48 50
C 45 48
C 47 50
C 49 51
C 52 54
C 43 52
C 43 46
C 43 45
C 43 44
C 46 48
C 45 46
C 53 55
C 53 54
C 49 53
C 49 52
C 47 49
C 47 48
C 46 47
C 50 52
C 49 50
C 48 49
C 51 54
C 51 53
C 51 52
R 17 W 40 53 45 46 41 52 47 51 42 55 49 50 43 54 44 48 E 40 41 41 42 42 43 43 44 44 45 45 46 46 47 47 48 48 49 49 50 50 51 51 52 52 53 53 54 54 55 P 47 52 43 54 49 45 41 55 53 51 48 46 44 42 40 50
C 16 40
C 18 42
C 19 43
C 23 47
C 33 49
C 38 54
C 0 16
C 1 17
C 2 18
C 3 19
C 4 44
C 4 20
C 5 45
C 5 21
C 6 22
C 8 32
C 10 50
C 11 51
C 12 36
C 13 37
C 14 38
C 14 46
C 6 14
C 15 39
C 20 44
C 21 45
C 22 46
C 24 40
C 16 24
C 2 16
C 25 41
C 1 25
C 17 41
C 9 41
C 9 33
C 17 25
C 9 17
C 3 9
C 26 42
C 18 26
C 6 18
C 27 43
C 19 27
C 28 52
C 12 28
C 12 24
C 4 12
C 1 4
C 1 2
C 20 24
C 12 20
C 29 53
C 13 29
C 13 25
C 5 13
C 5 9
C 21 25
C 17 21
C 13 21
C 13 17
C 30 54
C 30 38
C 30 42
C 31 55
C 15 31
C 7 15
C 7 23
C 7 19
C 7 13
C 15 47
C 15 23
C 34 50
C 10 34
C 10 26
C 10 18
C 22 26
C 30 34
C 14 30
C 14 22
C 26 30
C 22 26
C 35 51
C 11 35
C 11 27
C 11 19
C 11 17
C 36 52
C 28 36
C 28 44
C 24 28
C 37 53
C 29 37
C 29 45
C 29 33
C 38 46
C 34 38
C 39 55
C 31 39
C 31 43
C 31 35
C 27 31
C 15 27
C 15 21
C 23 31
C 23 27
C 39 53
C 39 47
C 40 48
C 8 40
C 8 16
C 4 8
C 3 4
C 4 8
C 5 8
C 16 20
C 12 16
C 6 12
C 6 8
C 5 6
C 9 12
C 10 16
C 7 10
C 7 9
C 7 8
C 10 12
C 9 10
C 13 16
C 18 20
C 32 48
C 32 40
C 24 32
C 14 24
C 14 18
C 11 14
C 11 13
C 11 12
C 14 16
C 13 14
C 17 18
C 20 24
C 28 40
C 28 32
C 22 28
C 26 32
C 36 48
C 36 44
C 30 36
C 41 49
C 25 41
C 25 29
C 19 25
C 15 19
C 15 20
C 15 17
C 15 16
C 18 20
C 17 18
C 19 22
C 21 25
C 21 24
C 19 21
C 19 20
C 22 24
C 21 22
C 25 28
C 33 41
C 29 33
C 23 29
C 23 26
C 23 25
C 23 24
C 26 28
C 25 26
C 27 33
C 29 32
C 31 41
C 37 49
C 37 45
C 42 50
C 34 42
C 34 40
C 30 34
C 27 30
C 27 29
C 27 28
C 30 32
C 29 30
C 36 40
C 33 36
C 38 42
C 38 44
C 42 48
C 43 51
C 35 43
C 35 39
C 35 37
C 31 35
C 31 34
C 31 33
C 31 32
C 34 36
C 33 34
C 35 40
C 37 41
C 37 38
C 35 37
C 35 36
C 38 40
C 37 38
C 39 43
C 39 45
C 39 42
C 41 44
C 39 41
C 39 40
C 42 44
C 41 42
C 43 49
C 45 48
C 46 52
C 46 50
C 43 46
C 43 45
C 43 44
C 46 48
C 45 46
C 51 54
C 47 51
C 51 52
C 47 51
C 47 50
C 47 49
C 47 48
C 49 50
C 53 54
