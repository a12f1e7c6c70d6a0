0
C 1 10
C 15 22
C 39 45
C 28 35
C 47 48
C 13 25
C 19 21
C 40 50
C 32 34
C 5 11
R 3 W 5 11 E 5 11 P 5 11
C 42 49
R 3 W 39 45 E 39 45 P 39 45
R 3 W 42 49 E 42 49 P 42 49
C 31 37
R 3 W 31 37 E 31 37 P 31 37
C 0 12
C 29 33
R 3 W 28 35 E 28 35 P 28 35
R 3 W 29 33 E 29 33 P 29 33
C 43 44
R 3 W 43 44 E 43 44 P 43 44
R 3 W 47 48 E 47 48 P 47 48
C 6 8
R 3 W 1 10 E 1 10 P 1 10
R 3 W 6 8 E 6 8 P 6 8
C 2 9
C 16 20
R 3 W 15 22 E 15 22 P 15 22
R 3 W 16 20 E 16 20 P 16 20
C 41 51
R 3 W 40 50 E 40 50 P 40 50
R 3 W 41 51 E 41 51 P 41 51
C 27 36
R 3 W 27 36 E 27 36 P 27 36
R 3 W 32 34 E 32 34 P 32 34
C 14 23
R 3 W 14 23 E 14 23 P 14 23
R 3 W 19 21 E 19 21 P 19 21
C 18 24
R 3 W 18 24 E 18 24 P 18 24
C 26 38
C 46 52
R 3 W 46 52 E 46 52 P 46 52
C 3 7
R 3 W 2 9 E 2 9 P 2 9
R 3 W 3 7 E 3 7 P 3 7
C 4 11
R 3 W 0 12 E 0 12 P 0 12
R 5 W 4 5 11 E 4 11 5 11 P 11 4 5
C 30 37
R 3 W 26 38 E 26 38 P 26 38
R 5 W 30 31 37 E 30 37 31 37 P 37 30 31
C 17 24
R 3 W 13 25 E 13 25 P 13 25
R 5 W 17 18 24 E 17 24 18 24 P 24 17 18
C 20 22
C 15 16
C 1 6
C 8 10
C 40 41
C 50 51
C 14 19
C 21 23
R 6 W 14 23 19 21 E 14 19 14 21 19 23 21 23 P 19 23 14 21
R 6 W 16 20 15 22 E 15 16 15 20 16 22 20 22 P 16 20 22 15
C 34 36
C 27 32
C 44 48
C 43 47
R 6 W 43 44 47 48 E 43 44 43 47 44 48 47 48 P 44 47 43 48
C 28 29
C 33 35
R 6 W 32 34 27 36 E 27 32 27 34 32 36 34 36 P 32 34 36 27
R 6 W 28 35 29 33 E 28 29 28 33 29 35 33 35 P 29 35 28 33
C 45 49
R 6 W 40 50 41 51 E 40 50 40 41 50 51 41 51 P 50 41 40 51
C 7 9
C 2 3
R 6 W 1 10 6 8 E 1 6 1 8 6 10 8 10 P 6 10 1 8
R 6 W 3 7 2 9 E 2 3 2 7 3 9 7 9 P 3 7 9 2
C 13 17
C 24 25
C 37 38
C 26 30
C 11 12
C 0 4
C 48 52
C 14 15
C 16 19
C 20 21
C 22 23
R 11 W 13 25 17 18 24 E 13 17 13 24 18 25 17 25 24 25 P 17 25 13 18 24
R 20 W 14 23 19 21 16 20 15 22 E 14 16 14 20 14 15 16 19 16 22 20 21 20 22 15 19 15 21 19 23 21 23 22 23 P 19 21 20 23 16 22 14 15
C 33 34
C 27 28
C 29 32
C 35 36
R 11 W 30 31 37 26 38 E 31 38 26 30 26 37 30 38 37 38 P 30 38 37 31 26
R 20 W 28 35 29 33 32 34 27 36 E 27 28 27 29 27 33 28 32 28 34 29 35 29 32 33 35 33 34 35 36 32 36 34 36 P 28 35 29 36 27 32 33 34
C 9 10
C 1 2
C 3 6
C 7 8
R 11 W 4 5 11 0 12 E 5 12 0 4 0 11 4 12 11 12 P 4 12 11 5 0
R 20 W 3 7 2 9 1 10 6 8 E 1 3 1 7 1 2 3 9 3 6 7 9 7 8 2 6 2 8 9 10 6 10 8 10 P 3 8 7 10 1 9 2 6
C 49 51
C 4 6
C 4 7
C 5 9
C 0 5
C 0 1
C 2 5
C 2 4
C 8 11
C 3 8
C 1 3
C 1 2
C 3 4
C 2 3
C 6 11
C 7 8
C 10 12
C 9 10
C 6 9
C 5 6
C 5 7
C 4 5
C 3 4
C 6 8
C 6 7
C 5 6
C 10 11
C 9 10
C 8 9
C 23 25
C 17 19
C 17 20
C 18 22
C 13 18
C 13 14
C 15 18
C 15 17
C 21 24
C 16 21
C 14 16
C 14 15
C 16 17
C 15 16
C 19 24
C 20 21
C 22 23
C 19 22
C 18 19
C 18 20
C 17 18
C 16 17
C 19 21
C 19 20
C 18 19
C 23 24
C 22 23
C 21 22
R 14 W 4 5 11 0 12 3 7 2 9 1 10 6 8 E 0 1 1 2 2 3 3 4 4 5 5 6 6 7 7 8 8 9 9 10 10 11 11 12 P 6 9 3 11 7 4 1 12 10 8 5 2 0
R 14 W 14 23 19 21 16 20 15 22 13 25 17 18 24 E 13 14 14 15 15 16 16 17 17 18 18 19 19 20 20 21 21 22 22 23 23 24 24 25 P 19 23 16 25 21 17 14 24 22 20 18 15 13
C 10 23
C 2 15
C 3 16
C 11 24
C 30 32
C 30 33
C 31 35
C 26 31
C 26 27
C 28 31
C 28 30
C 34 37
C 29 34
C 27 29
C 27 28
C 29 30
C 28 29
C 32 37
C 33 34
C 36 38
C 35 36
C 32 35
C 31 32
C 31 33
C 30 31
C 29 30
C 32 34
C 32 33
C 31 32
C 36 37
C 35 36
C 34 35
R 14 W 30 31 37 26 38 28 35 29 33 32 34 27 36 E 26 27 27 28 28 29 29 30 30 31 31 32 32 33 33 34 34 35 35 36 36 37 37 38 P 32 35 28 37 33 30 26 38 36 34 31 29 27
C 39 43
C 41 48
C 42 46
C 40 42
C 39 40
C 43 50
C 44 45
C 41 44
C 40 41
C 45 49
C 45 48
C 46 47
C 42 46
C 43 46
C 42 43
C 40 42
C 41 43
C 41 42
C 45 46
C 44 45
C 47 50
C 46 47
C 43 46
C 43 44
C 42 43
C 48 49
C 51 52
C 50 51
C 48 50
C 45 48
C 45 46
C 44 45
C 47 48
C 46 47
C 49 51
C 49 50
R 16 W 39 45 42 49 40 50 41 51 43 44 47 48 46 52 E 39 40 40 41 41 42 42 43 43 44 44 45 45 46 46 47 47 49 47 48 49 50 48 50 50 51 51 52 P 45 50 42 51 47 43 40 52 49 46 44 41 39 48
C 48 49
R 15 W 39 45 42 49 40 50 41 51 43 44 47 48 46 52 E 39 40 40 41 41 42 42 43 43 44 44 45 45 46 46 47 47 48 48 49 49 50 50 51 51 52 P 45 49 42 51 47 43 40 52 50 48 46 44 41 39
C 28 41
C 29 42
C 36 49
C 37 50
C 25 38
C 0 26
C 1 27
C 2 28
C 3 29
C 4 43
C 5 31
C 5 44
C 6 32
C 7 33
C 8 34
C 9 35
C 10 36
C 11 37
C 12 51
C 12 25
C 13 39
C 0 13
C 14 40
C 1 14
C 15 41
C 10 41
C 15 28
C 10 28
C 16 42
C 11 42
C 16 29
C 11 29
C 17 30
C 4 17
C 12 17
C 18 31
C 19 45
C 6 19
C 6 15
C 10 15
C 20 46
C 7 20
C 7 16
C 11 16
C 21 47
C 8 21
C 22 52
C 9 22
C 23 49
C 23 36
C 23 41
C 24 50
C 24 37
C 24 42
C 26 39
C 13 26
C 4 13
C 1 4
C 8 26
C 8 13
C 2 8
C 2 4
C 27 40
C 14 27
C 30 43
C 17 30
C 17 26
C 31 48
C 9 31
C 9 27
C 32 45
C 19 32
C 19 28
C 15 19
C 23 32
C 23 28
C 33 46
C 20 33
C 20 29
C 16 20
C 24 33
C 24 29
C 34 47
C 21 34
C 21 39
C 12 21
C 12 17
C 12 13
C 6 12
C 10 13
C 10 12
C 21 26
C 17 21
C 15 17
C 19 21
C 30 34
C 35 52
C 22 35
C 35 48
C 36 45
C 36 41
C 32 36
C 37 46
C 37 42
C 33 37
C 38 51
C 25 38
C 25 43
C 25 39
C 25 30
C 25 26
C 23 25
C 26 28
C 25 26
C 34 39
C 30 34
C 30 32
C 34 36
C 38 47
C 38 43
C 38 39
C 38 41
C 39 45
C 40 44
C 18 40
C 5 18
C 5 14
C 5 8
C 9 14
C 3 9
C 3 6
C 3 8
C 3 5
C 3 4
C 6 8
C 22 44
C 31 40
C 27 31
C 18 27
C 14 18
C 7 14
C 7 9
C 7 10
C 7 8
C 9 12
C 9 10
C 11 18
C 11 15
C 13 14
C 11 13
C 11 12
C 14 15
C 13 14
C 17 18
C 22 31
C 22 27
C 16 22
C 16 19
C 16 17
C 15 16
C 18 19
C 17 18
C 20 27
C 20 23
C 21 22
C 20 21
C 19 20
C 22 23
C 21 22
C 35 44
C 35 40
C 31 35
C 24 31
C 24 27
C 24 25
C 23 24
C 26 27
C 25 26
C 28 31
C 29 35
C 29 30
C 28 29
C 27 28
C 30 31
C 29 30
C 33 40
C 32 33
C 34 35
C 32 34
C 31 32
C 33 35
C 33 34
C 37 44
C 36 37
C 38 40
C 36 38
C 35 36
C 37 40
C 37 38
C 41 44
C 42 48
C 39 42
C 39 44
C 39 41
C 39 40
C 42 44
C 43 49
C 43 48
C 47 52
C 46 47
C 45 46
C 43 45
C 43 44
C 46 48
C 45 46
C 49 50
C 47 49
C 47 48
C 50 52
C 49 50
C 51 52
