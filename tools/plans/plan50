0
C 2 6
C 3 11
C 18 20
C 12 24
C 5 9
R 3 W 2 6 E 2 6 P 2 6
R 3 W 5 9 E 5 9 P 5 9
C 30 34
C 28 36
C 26 32
C 25 33
R 3 W 25 33 E 25 33 P 25 33
R 3 W 26 32 E 26 32 P 26 32
C 17 23
R 3 W 17 23 E 17 23 P 17 23
C 14 21
C 4 10
R 3 W 3 11 E 3 11 P 3 11
R 3 W 4 10 E 4 10 P 4 10
C 1 7
C 13 22
R 3 W 13 22 E 13 22 P 13 22
R 3 W 18 20 E 18 20 P 18 20
C 38 47
C 29 35
R 3 W 28 36 E 28 36 P 28 36
R 3 W 29 35 E 29 35 P 29 35
C 15 19
R 3 W 14 21 E 14 21 P 14 21
R 3 W 15 19 E 15 19 P 15 19
C 16 23
R 3 W 12 24 E 12 24 P 12 24
R 5 W 16 17 23 E 16 23 17 23 P 23 16 17
C 39 46
C 42 48
R 3 W 42 48 E 42 48 P 42 48
C 0 8
R 3 W 0 8 E 0 8 P 0 8
R 3 W 1 7 E 1 7 P 1 7
C 41 48
C 40 44
R 3 W 39 46 E 39 46 P 39 46
R 3 W 40 44 E 40 44 P 40 44
C 27 31
R 3 W 27 31 E 27 31 P 27 31
R 3 W 30 34 E 30 34 P 30 34
C 0 1
C 7 8
C 43 45
R 3 W 38 47 E 38 47 P 38 47
R 3 W 43 45 E 43 45 P 43 45
C 6 9
C 2 5
R 6 W 0 8 1 7 E 0 1 0 7 1 8 7 8 P 1 8 0 7
R 6 W 2 6 5 9 E 2 6 2 5 6 9 5 9 P 6 5 2 9
C 20 22
C 13 18
C 3 4
C 10 11
R 6 W 3 11 4 10 E 3 4 3 10 4 11 10 11 P 4 11 3 10
C 37 49
R 3 W 37 49 E 37 49 P 37 49
R 5 W 41 42 48 E 41 48 42 48 P 48 41 42
C 19 21
C 14 15
R 6 W 18 20 13 22 E 13 18 13 20 18 22 20 22 P 18 20 22 13
R 6 W 15 19 14 21 E 14 15 14 19 15 21 19 21 P 15 19 21 14
C 45 47
C 38 43
C 31 34
C 27 30
C 39 40
C 44 46
R 6 W 43 45 38 47 E 38 43 38 45 43 47 45 47 P 43 45 47 38
R 6 W 39 46 40 44 E 39 40 39 44 40 46 44 46 P 40 46 39 44
C 32 33
C 25 26
R 6 W 26 32 25 33 E 25 26 25 32 26 33 32 33 P 26 32 33 25
R 6 W 27 31 30 34 E 27 31 27 30 31 34 30 34 P 31 30 27 34
C 28 29
C 35 36
R 6 W 28 36 29 35 E 28 29 28 35 29 36 35 36 P 29 36 28 35
C 12 16
C 23 24
C 37 41
C 48 49
C 44 45
C 38 39
C 40 43
C 46 47
R 11 W 37 49 41 42 48 E 37 41 37 48 42 49 41 49 48 49 P 41 49 37 42 48
R 20 W 39 46 40 44 43 45 38 47 E 38 39 38 40 38 44 39 43 39 45 40 46 40 43 44 46 44 45 46 47 43 47 45 47 P 39 46 40 47 38 43 44 45
C 25 27
C 26 31
C 26 27
C 5 10
C 9 11
C 9 10
C 19 20
C 13 14
C 15 18
C 21 22
R 11 W 12 24 16 17 23 E 12 16 12 23 17 24 16 24 23 24 P 16 24 12 17 23
R 20 W 15 19 14 21 18 20 13 22 E 13 15 13 19 13 14 15 21 15 18 19 21 19 20 14 18 14 20 21 22 18 22 20 22 P 15 20 19 22 13 21 14 18
C 17 21
C 12 17
C 12 13
C 14 17
C 16 18
C 16 19
C 14 16
C 20 23
C 15 20
C 13 15
C 13 14
C 15 16
C 14 15
C 18 23
C 19 20
C 22 24
C 21 22
C 18 21
C 17 18
C 17 19
C 16 17
C 15 16
C 18 20
C 18 19
C 17 18
C 22 23
C 21 22
C 20 21
C 47 49
C 41 43
C 41 44
C 42 46
C 37 42
C 37 38
C 39 42
C 39 41
C 45 48
C 40 45
C 38 40
C 38 39
C 40 41
C 39 40
C 43 48
C 44 45
C 46 47
C 43 46
C 42 43
C 42 44
C 41 42
C 40 41
C 43 45
C 43 44
C 42 43
C 47 48
C 46 47
C 45 46
R 14 W 12 24 16 17 23 15 19 14 21 18 20 13 22 E 12 13 13 14 14 15 15 16 16 17 17 18 18 19 19 20 20 21 21 22 22 23 23 24 P 18 21 15 23 19 16 13 24 22 20 17 14 12
R 14 W 39 46 40 44 43 45 38 47 37 49 41 42 48 E 37 38 38 39 39 40 40 41 41 42 42 43 43 44 44 45 45 46 46 47 47 48 48 49 P 43 46 39 48 44 41 38 49 47 45 42 40 37
C 20 45
C 12 37
C 16 41
C 17 42
C 18 43
C 19 44
C 5 7
C 0 2
C 0 3
C 1 6
C 1 2
C 3 5
C 2 5
C 4 6
C 1 4
C 1 3
C 2 3
C 4 5
C 7 10
C 8 11
C 6 8
C 6 9
C 6 7
C 4 6
C 3 4
C 5 7
C 5 6
C 8 10
C 8 9
C 7 8
R 13 W 2 6 5 9 3 11 4 10 0 8 1 7 E 0 1 1 2 2 3 3 4 4 5 5 6 6 7 7 8 8 9 9 10 10 11 P 6 9 2 11 8 4 0 10 7 5 3 1
C 25 28
C 29 31
C 26 29
C 30 35
C 30 32
C 28 30
C 26 28
C 27 30
C 27 28
C 29 30
C 34 36
C 33 36
C 31 33
C 34 35
C 31 34
C 32 35
C 31 32
C 29 31
C 28 29
C 30 32
C 30 31
C 33 35
C 33 34
C 32 33
R 13 W 26 32 25 33 27 31 30 34 28 36 29 35 E 25 26 26 27 27 28 28 29 29 30 30 31 31 32 32 33 33 34 34 35 35 36 P 31 34 27 36 32 29 26 35 33 30 28 25
C 5 30
C 0 25
C 4 29
C 6 31
C 7 32
C 5 17
C 0 12
C 1 13
C 2 14
C 3 15
C 4 37
C 4 12
C 6 18
C 7 19
C 8 49
C 9 21
C 10 22
C 11 23
C 16 25
C 24 33
C 8 24
C 8 16
C 4 8
C 25 41
C 16 25
C 26 38
C 1 26
C 1 4
C 13 38
C 13 26
C 5 13
C 27 39
C 2 27
C 14 39
C 14 27
C 6 14
C 28 40
C 3 28
C 15 40
C 15 28
C 7 15
C 29 45
C 20 29
C 12 20
C 8 12
C 2 8
C 2 4
C 5 8
C 29 37
C 20 29
C 16 20
C 12 16
C 6 12
C 6 8
C 30 42
C 17 30
C 31 43
C 18 31
C 32 44
C 19 32
C 33 49
C 24 33
C 24 41
C 24 25
C 24 29
C 20 24
C 25 37
C 25 29
C 33 45
C 33 41
C 33 37
C 34 46
C 9 34
C 9 38
C 9 26
C 9 13
C 3 9
C 3 6
C 3 5
C 3 4
C 6 8
C 9 12
C 17 26
C 13 17
C 7 13
C 21 46
C 21 34
C 21 38
C 21 30
C 21 26
C 34 42
C 34 38
C 30 34
C 35 47
C 10 35
C 10 39
C 10 27
C 10 14
C 10 16
C 7 10
C 7 12
C 7 9
C 7 8
C 10 12
C 18 27
C 14 18
C 14 20
C 14 16
C 18 24
C 22 47
C 22 35
C 22 39
C 22 31
C 22 27
C 22 25
C 27 29
C 35 43
C 35 39
C 31 35
C 31 33
C 35 37
C 36 48
C 11 36
C 11 40
C 11 28
C 11 15
C 11 17
C 11 13
C 11 14
C 11 12
C 13 16
C 13 14
C 17 20
C 19 28
C 15 19
C 15 21
C 15 18
C 15 17
C 15 16
C 18 20
C 17 18
C 19 26
C 19 24
C 21 22
C 19 21
C 19 20
C 22 24
C 21 22
C 23 48
C 23 36
C 23 40
C 23 32
C 23 28
C 23 30
C 23 25
C 26 27
C 23 26
C 23 24
C 25 27
C 25 26
C 28 34
C 28 29
C 30 31
C 28 30
C 27 28
C 29 31
C 29 30
C 33 34
C 36 44
C 36 40
C 32 36
C 32 38
C 32 35
C 32 33
C 31 32
C 34 35
C 33 34
C 36 42
C 37 38
C 39 41
C 36 39
C 36 37
C 35 36
C 38 39
C 37 38
C 40 46
C 41 42
C 43 45
C 40 43
C 40 41
C 39 40
C 42 43
C 41 42
C 45 46
C 44 46
C 48 49
C 47 48
C 44 47
C 44 45
C 43 44
C 46 47
C 47 48
