0
C 18 37
C 20 30
C 26 28
C 43 44
C 0 13
C 45 49
C 17 34
C 47 48
C 1 12
C 41 52
C 38 51
R 3 W 38 51 E 38 51 P 38 51
R 3 W 43 44 E 43 44 P 43 44
C 7 11
R 3 W 1 12 E 1 12 P 1 12
R 3 W 7 11 E 7 11 P 7 11
C 39 50
R 3 W 39 50 E 39 50 P 39 50
R 3 W 45 49 E 45 49 P 45 49
C 31 32
R 3 W 18 37 E 18 37 P 18 37
R 3 W 31 32 E 31 32 P 31 32
C 40 53
R 3 W 40 53 E 40 53 P 40 53
R 3 W 47 48 E 47 48 P 47 48
C 19 36
R 3 W 19 36 E 19 36 P 19 36
R 3 W 20 30 E 20 30 P 20 30
C 5 6
R 3 W 0 13 E 0 13 P 0 13
R 3 W 5 6 E 5 6 P 5 6
C 9 10
C 4 8
C 25 27
R 3 W 25 27 E 25 27 P 25 27
R 3 W 26 28 E 26 28 P 26 28
C 42 46
R 3 W 41 52 E 41 52 P 41 52
R 3 W 42 46 E 42 46 P 42 46
C 21 22
C 3 14
R 3 W 3 14 E 3 14 P 3 14
R 3 W 4 8 E 4 8 P 4 8
C 24 29
C 49 50
C 39 45
C 23 33
R 3 W 17 34 E 17 34 P 17 34
R 3 W 23 33 E 23 33 P 23 33
C 30 36
C 19 20
C 16 35
R 3 W 16 35 E 16 35 P 16 35
R 3 W 21 22 E 21 22 P 21 22
C 2 15
R 3 W 2 15 E 2 15 P 2 15
R 3 W 9 10 E 9 10 P 9 10
C 40 47
C 48 53
R 6 W 45 49 39 50 E 39 45 39 49 45 50 49 50 P 45 49 50 39
R 6 W 40 53 47 48 E 40 47 40 48 47 53 48 53 P 47 53 40 48
C 22 35
C 16 21
R 6 W 20 30 19 36 E 19 20 19 30 20 36 30 36 P 20 30 36 19
R 6 W 21 22 16 35 E 16 21 16 22 21 35 22 35 P 21 22 35 16
C 8 14
C 3 4
C 41 42
C 46 52
R 6 W 41 52 42 46 E 41 42 41 46 42 52 46 52 P 42 52 41 46
C 10 15
C 2 9
R 6 W 9 10 2 15 E 2 9 2 10 9 15 10 15 P 9 10 15 2
R 6 W 4 8 3 14 E 3 4 3 8 4 14 8 14 P 4 8 14 3
C 33 34
C 17 23
R 6 W 23 33 17 34 E 17 23 17 33 23 34 33 34 P 23 33 34 17
C 44 51
C 38 43
R 6 W 43 44 38 51 E 38 43 38 44 43 51 44 51 P 43 44 51 38
C 1 7
C 11 12
R 6 W 1 12 7 11 E 1 7 1 11 7 12 11 12 P 7 12 1 11
C 27 28
C 25 26
R 3 W 24 29 E 24 29 P 24 29
R 6 W 25 27 26 28 E 25 27 25 26 27 28 26 28 P 27 26 25 28
C 6 13
C 0 5
R 6 W 5 6 0 13 E 0 5 0 6 5 13 6 13 P 5 6 13 0
C 18 31
C 32 37
R 6 W 18 37 31 32 E 18 31 18 32 31 37 32 37 P 31 37 18 32
C 24 27
C 24 25
C 26 29
C 26 27
C 25 26
C 28 29
C 27 28
C 14 15
C 2 3
C 32 33
C 23 31
C 52 53
C 40 41
C 0 1
C 12 13
C 22 30
C 20 21
C 50 51
C 38 39
C 16 17
C 18 19
C 16 18
C 17 19
C 17 18
C 20 32
C 21 33
C 22 23
C 20 22
C 17 20
C 18 22
C 18 20
C 21 23
C 30 31
C 30 32
C 21 30
C 23 32
C 31 33
C 34 35
C 36 37
C 34 36
C 19 34
C 19 22
C 19 21
C 19 20
C 22 30
C 21 22
C 35 37
C 35 36
C 31 35
C 31 34
C 23 31
C 23 30
C 22 23
C 32 34
C 31 32
C 30 31
C 33 36
C 33 35
C 33 34
R 17 W 21 22 16 35 20 30 19 36 18 37 31 32 23 33 17 34 E 16 17 17 18 18 19 19 20 20 21 21 22 22 23 23 30 30 31 31 32 32 33 33 34 34 35 35 36 36 37 P 30 34 20 36 32 22 18 37 35 33 31 23 21 19 16 17
R 7 W 24 29 25 27 26 28 E 24 25 25 26 26 27 27 28 28 29 P 27 29 25 28 26 24
C 29 37
C 16 24
C 18 26
C 19 25
C 27 35
C 28 34
C 13 15
C 0 2
C 1 3
C 1 2
C 4 5
C 6 8
C 7 9
C 6 7
C 8 9
C 10 11
C 4 10
C 4 6
C 1 4
C 2 6
C 2 4
C 5 11
C 5 7
C 8 10
C 5 8
C 7 10
C 9 11
C 12 14
C 3 12
C 3 6
C 3 5
C 3 4
C 6 8
C 5 6
C 13 14
C 9 13
C 9 12
C 7 9
C 7 8
C 6 7
C 10 12
C 9 10
C 8 9
C 11 14
C 11 13
C 11 12
C 51 53
C 38 40
C 39 41
C 39 40
C 42 43
C 44 46
C 45 47
C 44 45
C 46 47
C 48 49
C 42 48
C 42 44
C 39 42
C 40 44
C 40 42
C 43 49
C 43 45
C 46 48
C 43 46
C 45 48
C 47 49
C 50 52
C 41 50
C 41 44
C 41 43
C 41 42
C 44 46
C 43 44
C 51 52
C 47 51
C 47 50
C 45 47
C 45 46
C 44 45
C 48 50
C 47 48
C 46 47
C 49 52
C 49 51
C 49 50
R 17 W 5 6 0 13 1 12 7 11 4 8 3 14 9 10 2 15 E 0 1 1 2 2 3 3 4 4 5 5 6 6 7 7 8 8 9 9 10 10 11 11 12 12 13 13 14 14 15 P 7 12 3 14 9 5 1 15 13 11 8 6 4 2 0 10
R 17 W 45 49 39 50 43 44 38 51 41 52 42 46 40 53 47 48 E 38 39 39 40 40 41 41 42 42 43 43 44 44 45 45 46 46 47 47 48 48 49 49 50 50 51 51 52 52 53 P 45 49 41 51 47 43 39 52 50 48 46 44 42 40 38 53
C 15 53
C 0 38
C 1 39
C 2 40
C 3 41
C 4 42
C 5 43
C 6 44
C 7 45
C 8 46
C 9 47
C 10 48
C 11 49
C 12 50
C 13 51
C 14 52
R 153 W 5 6 0 13 1 12 7 11 4 8 3 14 9 10 2 15 45 49 39 50 43 44 38 51 41 52 42 46 40 53 47 48 E 0 1 0 38 38 39 1 2 1 39 2 3 2 40 39 40 3 4 3 41 4 5 4 42 5 6 5 43 40 41 6 7 6 44 7 8 7 45 41 42 8 9 8 46 9 10 9 47 42 43 10 11 10 48 11 12 11 49 43 44 12 13 12 50 13 14 13 51 44 45 14 15 14 52 45 46 15 53 46 47 47 48 48 49 49 50 50 51 51 52 52 53 P 10 45 6 49 41 9 5 14 13 46 8 3 51 47 12 43 39 2 53 15 50 4 44 42 40 38 1 52 48 11 7 0
C 0 16
C 1 17
C 2 18
C 3 19
C 1 3
C 4 20
C 6 22
C 10 32
C 12 28
C 4 12
C 13 27
C 13 39
C 13 17
C 3 13
C 9 17
C 15 29
C 15 23
C 7 15
C 20 42
C 12 20
C 21 43
C 21 39
C 5 21
C 5 13
C 23 45
C 15 23
C 24 38
C 16 24
C 1 16
C 2 24
C 4 16
C 2 4
C 25 41
C 19 25
C 7 19
C 26 40
C 14 40
C 14 32
C 18 26
C 6 18
C 10 26
C 10 18
C 14 26
C 30 38
C 8 30
C 8 24
C 8 16
C 3 8
C 3 4
C 31 47
C 17 31
C 17 21
C 9 17
C 9 13
C 7 9
C 5 7
C 32 48
C 33 49
C 11 33
C 11 25
C 11 19
C 11 13
C 9 11
C 34 50
C 28 34
C 28 42
C 20 28
C 35 51
C 27 35
C 27 43
C 27 39
C 21 27
C 19 21
C 31 39
C 35 47
C 35 43
C 36 52
C 36 40
C 36 44
C 22 36
C 14 22
C 32 36
C 26 32
C 36 44
C 37 53
C 29 37
C 29 51
C 29 45
C 23 29
C 38 46
C 30 38
C 24 30
C 12 24
C 12 16
C 6 12
C 6 8
C 5 8
C 5 6
C 10 16
C 10 12
C 7 10
C 7 8
C 9 12
C 9 10
C 18 24
C 20 30
C 14 20
C 14 18
C 14 16
C 11 14
C 11 12
C 20 24
C 18 20
C 26 30
C 28 38
C 22 28
C 22 26
C 22 24
C 28 30
C 26 28
C 34 46
C 34 42
C 32 34
C 36 38
C 32 36
C 30 32
C 34 38
C 34 36
C 41 49
C 33 41
C 25 33
C 15 25
C 15 17
C 15 19
C 13 15
C 13 16
C 13 14
C 15 18
C 15 16
C 17 21
C 17 19
C 17 20
C 17 18
C 19 22
C 19 20
C 23 33
C 23 27
C 25 31
C 23 25
C 21 23
C 21 24
C 21 22
C 23 26
C 23 24
C 27 31
C 25 27
C 25 28
C 25 26
C 27 30
C 27 28
C 29 41
C 29 35
C 33 39
C 29 33
C 29 31
C 29 32
C 29 30
C 31 34
C 31 32
C 35 39
C 33 35
C 33 36
C 33 34
C 50 52
C 37 52
C 37 49
C 37 45
C 37 41
C 37 43
C 37 39
C 40 50
C 40 48
C 40 44
C 40 42
C 38 40
C 35 38
C 35 36
C 37 40
C 37 38
C 41 47
C 41 43
C 44 46
C 42 44
C 39 42
C 39 40
C 41 44
C 41 42
C 45 50
C 45 47
C 46 48
C 43 46
C 43 44
C 45 48
C 45 46
C 47 48
C 49 51
C 49 50
